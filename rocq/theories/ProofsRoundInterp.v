(** Rounding error of interpolation: value and gradient, in each dimension. *)
From Coq Require Import ZArith List Bool Lia Reals Lra.
From Flocq Require Import Core BinarySingleNaN.
From Verif Require Import Base Num NumB64 ModelVec ModelGrid ModelArray ModelInterp SpecGrid SpecInterp SpecB64 SpecRound
  ProofsBase ProofsGrid ProofsArray ProofsGridProps ProofsHermiteCell ProofsHermiteExact ProofsInterp ProofsInterpProps
  ProofsB64 ProofsB64Ops ProofsB64Grid ProofsB64Interp ProofsRound ProofsRoundHermite ProofsRoundAxis ProofsRoundEval.
Open Scope R_scope.

Definition errk (dim : nat) : R := match dim with 1%nat => 512 | 2%nat => 8192 | _ => 65536 end.

(** ** Scales *)
Definition rng (k : Z) (S : R) : Prop := bpow radix2 (- k) <= S <= bpow radix2 k.
Lemma rng_mul a b x y : rng a x -> rng b y -> rng (a + b) (x * y).
Proof.
  intros [X1 X2] [Y1 Y2]. pose proof (bpow_gt_0 radix2 (- a)). pose proof (bpow_gt_0 radix2 (- b)). split.
  - replace (- (a + b))%Z with (- a + - b)%Z by lia. rewrite bpow_plus. apply Rmult_le_compat; lra.
  - rewrite bpow_plus. apply Rmult_le_compat; lra.
Qed.
Lemma rng_inv a x : rng a x -> rng a (/ x).
Proof.
  intros [X1 X2]. pose proof (bpow_gt_0 radix2 (- a)). split.
  - rewrite bpow_opp. apply Rinv_le; lra.
  - replace a with (- - a)%Z at 1 by lia. rewrite bpow_opp. apply Rinv_le; lra.
Qed.
Lemma rng_ok k x : rng k x -> (k <= 900)%Z -> okS x.
Proof.
  intros [X1 X2] Hk. split.
  - eapply Rle_trans; [|exact X1]. apply bpow_le. lia.
  - eapply Rle_trans; [exact X2|]. apply bpow_le. lia.
Qed.
Ltac scales := first [ eapply rng_ok; [repeat first [ eassumption | apply rng_inv | apply rng_mul ] | lia] ].

(** ** One statement for the three dimensions *)
Section Any.
Context {T : Type} {NT : Num T}.
Variable ap : R -> R -> R -> T -> R -> Prop.
Hypothesis C : calc ap.
Variables (dim : nat) (M : R) (h : vec3 R) (dx odx : vec3 T).
Hypothesis Hd : (1 <= dim <= 3)%nat.
Hypothesis HM : rng 200 M.
Hypothesis Hh : forall a, used dim a = true -> rng 200 (vget h a).
Let o : vec3 R := V3 (/ vx h) (/ vy h) (/ vz h).
Hypothesis Hdx : forall a, used dim a = true -> ap (vget h a) 1 1 (vget dx a) (vget h a).
Hypothesis Hox : forall a, used dim a = true -> ap (/ vget h a) 1 1 (vget odx a) (vget o a).
Definition apq (q : nodal T) (r : nodal R) : Prop :=
  match dim with
  | 1%nat => apq1 ap M (vx h) q r
  | 2%nat => apq2 ap M (vx h) (vy h) q r
  | _ => apq3 ap M (vx h) (vy h) (vz h) q r end.

Lemma round_any Q Qr b e t : (forall c, is_corner dim b c -> apq (Q c) (Qr c)) ->
  (forall a, used dim a = true -> ap 1 1 1 (vget e a) (vget t a) /\ 0 <= vget t a <= 1) ->
  let f := hermT dim Q b e dx odx false in let fr := herm dim Qr b t h o false in
  ap M 512 (errk dim) (f_phi f) (f_phi fr) /\
  forall a, used dim a = true -> ap (M * / vget h a) 512 (errk dim) (vget (f_psi f) a) (vget (f_psi fr) a).
Proof.
  intros HQ He f fr. assert (okM : okS M) by scales.
  pose proof (Hh AX eq_refl) as RX. pose proof (Hdx AX eq_refl) as DX. pose proof (Hox AX eq_refl) as OX. destruct (He AX eq_refl) as (EX & TX). cbn [vget] in RX, DX, OX, EX, TX.
  assert (okX : okS (vx h)) by scales. assert (okMX : okS (M * / vx h)) by scales. pose proof (okS_pos _ okX) as PX.
  assert (D : dim = 1%nat \/ dim = 2%nat \/ dim = 3%nat) by lia.
  pose proof (HQ b (corner_refl dim b)) as Q0. pose proof (HQ (cstep b AX) (corner_x dim b)) as Q1.
  destruct D as [D|[D|D]]; unfold f, fr; clear f fr; unfold apq, errk in *.
  - rewrite D in *. cbv iota in *. cbn [hermT herm].
    destruct (round_1d ap C M (vx h) dx odx h o okM PX okMX DX OX _ _ _ _ (vx e) (vx t) Q0 Q1 EX TX) as (R1 & R2).
    split; [exact R1|]. intros [| |] Hu; try discriminate. exact R2.
  - rewrite D in *. cbv iota in *. cbn [hermT herm].
    pose proof (Hh AY eq_refl) as RY. pose proof (Hdx AY eq_refl) as DY. pose proof (Hox AY eq_refl) as OY. destruct (He AY eq_refl) as (EY & TY). cbn [vget] in RY, DY, OY, EY, TY.
    assert (okY : okS (vy h)) by scales. assert (okMY : okS (M * / vy h)) by scales. pose proof (okS_pos _ okY) as PY. assert (okMXY : okS (M * / vx h * / vy h)) by scales.
    assert (CC : is_corner 2 b (cstep b AY) /\ is_corner 2 b (cstep (cstep b AX) AY)).
    { destruct b as [[i j] k]. split; intros [| |]; cbn; auto. }
    destruct CC as (C1 & C2). pose proof (HQ _ C1) as Q2. pose proof (HQ _ C2) as Q3.
    destruct (round_2d ap C M (vx h) (vy h) dx odx h o okM PX okX okMX DX OX PY okY okMY DY OY _ _ _ _ _ _ _ _ e t Q0 Q1 Q2 Q3 EX EY TX TY) as (R1 & R2 & R3).
    split; [exact R1|]. intros [| |] Hu; try discriminate; [exact R2|exact R3].
  - rewrite D in *. cbv iota in *. cbn [hermT herm].
    pose proof (Hh AY eq_refl) as RY. pose proof (Hdx AY eq_refl) as DY. pose proof (Hox AY eq_refl) as OY. cbn [vget] in RY, DY, OY.
    pose proof (Hh AZ eq_refl) as RZ. pose proof (Hdx AZ eq_refl) as DZ. pose proof (Hox AZ eq_refl) as OZ. cbn [vget] in RZ, DZ, OZ.
    assert (okY : okS (vy h)) by scales. assert (okMY : okS (M * / vy h)) by scales. pose proof (okS_pos _ okY) as PY. assert (okMXY : okS (M * / vx h * / vy h)) by scales.
    assert (okZ : okS (vz h)) by scales. assert (okMZ : okS (M * / vz h)) by scales. pose proof (okS_pos _ okZ) as PZ. assert (okMYZ : okS (M * / vy h * / vz h)) by scales.
    assert (okMZX : okS (M * / vz h * / vx h)) by scales. assert (okMXYZ : okS (M * / vx h * / vy h * / vz h)) by scales. assert (okXY : okS (vx h * vy h)) by scales.
    assert (CC : is_corner 3 b (cstep b AY) /\ is_corner 3 b (cstep b AZ) /\ is_corner 3 b (cstep (cstep b AX) AY) /\ is_corner 3 b (cstep (cstep b AY) AZ) /\
       is_corner 3 b (cstep (cstep b AX) AZ) /\ is_corner 3 b (cstep (cstep (cstep b AX) AY) AZ)).
    { destruct b as [[i j] k]. repeat split; intros [| |]; cbn; auto. }
    destruct CC as (C1 & C2 & C3 & C4 & C5 & C6).
    destruct (round_3d ap C M (vx h) (vy h) (vz h) dx odx h o okM PX okX okMX DX OX PY okY okMY okMXY DY OY PZ okZ okXY okMZ DZ OZ _ _ _ _ _ _ _ _ _ _ _ _ _ _ _ _ e t
       Q0 Q1 (HQ _ C1) (HQ _ C2) (HQ _ C3) (HQ _ C4) (HQ _ C5) (HQ _ C6)) as (R1 & R2 & R3 & R4).
    { intros a. apply He. destruct a; reflexivity. }
    split; [exact R1|]. intros [| |] Hu; [exact R2|exact R3|exact R4].
Qed.
End Any.

(** ** Interpolation *)
Definition toN (s : cell_values) : nodal R := mkNodal (cv s) (V3 (cv_x s) (cv_y s) (cv_z s)) (cv_xy s) (cv_yz s) (cv_zx s) (cv_xyz s).
(** what one cell holds, and its size *)
Definition stores64_at (ov : ovmode) (dim : nat) (g : grid b64) (l : levelset b64) (S : cell -> cell_values) (i j k : Z) : Prop :=
  let s := S (i, j, k) in
    (exists p, aget ov g (ls_phi_prev l) i j k = Ok p /\ is_real p (cv s)) /\
    (exists v, aget ov g (ls_psi_prev l) i j k = Ok v /\ is_real (vx v) (cv_x s) /\
       (used dim AY = true -> is_real (vy v) (cv_y s)) /\ (used dim AZ = true -> is_real (vz v) (cv_z s))) /\
    (exists m, aget ov g (ls_mix_prev l) i j k = Ok m /\ Forall2 is_real m
      (match dim with
       | 1%nat => [] | 2%nat => [cv_xy s] | _ => [cv_xy s; cv_yz s; cv_zx s; cv_xyz s] end)).
Definition sized_at (dim : nat) (h : vec3 R) (M : R) (s : cell_values) : Prop :=
    Rabs (cv s) <= M /\ Rabs (cv_x s) * vx h <= M /\
    (used dim AY = true -> Rabs (cv_y s) * vy h <= M /\ Rabs (cv_xy s) * (vx h * vy h) <= M) /\
    (used dim AZ = true -> Rabs (cv_z s) * vz h <= M /\ Rabs (cv_yz s) * (vy h * vz h) <= M /\
       Rabs (cv_zx s) * (vz h * vx h) <= M /\ Rabs (cv_xyz s) * (vx h * vy h * vz h) <= M).
Section Interp.
Variables (ov : ovmode) (dim : nat) (n : vec3 Z) (bmin bmax : vec3 b64) (g : grid b64) (l : levelset b64)
  (gR : grid R) (lR : levelset R) (S : cell -> cell_values) (M rho : R) (good : cell -> Prop).
Hypothesis Hb : built ov dim n 1 bmin bmax g.
Hypothesis HbR : built ov dim n 1 (reals bmin) (reals bmax) gR.
Hypothesis Hl : levelset_on g l.
Hypothesis HlR : levelset_on gR lR.
Hypothesis Hdef : interp_defined ov dim.
Hypothesis Hf : fine_box dim rho n bmin bmax.
Hypothesis HS : forall i j k, padded_cell dim n 1 (i, j, k) -> good (i, j, k) -> stores64_at ov dim g l S i j k.
Hypothesis HSR : stores ov dim n 1 gR lR S.
Hypothesis HM : moderate M.
Let h : vec3 R := hs n (reals bmin) (reals bmax).
Hypothesis Hz : forall c, padded_cell dim n 1 c -> good c -> sized_at dim h M (S c).
Let eps := epsr rho.

Lemma reals_get a : vget (reals bmin) a = real (vget bmin a) /\ vget (reals bmax) a = real (vget bmax a).
Proof. destruct a; split; reflexivity. Qed.
Lemma h_get a : vget h a = spacing64 (vget bmin a) (vget bmax a) (vget n a).
Proof. unfold h. rewrite hs_get. destruct (reals_get a) as (-> & ->). reflexivity. Qed.
Lemma dim_ok : (1 <= dim <= 3)%nat. Proof. apply Hb. Qed.
Lemma h_rng a : used dim a = true -> rng 200 (vget h a).
Proof. intros Hu. rewrite h_get. destruct (proj2 Hf a Hu) as (_ & _ & _ & H & _). exact H. Qed.
Lemma fine_sane : sane_box dim n bmin bmax.
Proof.
  intros a Hu. destruct (proj2 Hf a Hu) as (F1 & F2 & LU & [D1 D2] & HR). split; [exact F1|]. split; [exact F2|]. split; [exact LU|]. split.
  - eapply Rle_trans; [exact HR|]. assert (0 <= spacing64 (vget bmin a) (vget bmax a) (vget n a)) by (pose proof (bpow_gt_0 radix2 (-200)); lra).
    apply Rle_trans with (bpow radix2 30 * bpow radix2 200).
    + apply Rle_trans with (bpow radix2 30 * spacing64 (vget bmin a) (vget bmax a) (vget n a)).
      * apply Rmult_le_compat_r; [auto|]. apply Hf.
      * apply Rmult_le_compat_l; [apply bpow_ge_0|exact D2].
    + rewrite <- bpow_plus. apply bpow_le. lia.
  - eapply Rle_trans; [|exact D1]. apply bpow_le. lia.
Qed.
Lemma proper_reals : proper_box dim (reals bmin) (reals bmax).
Proof. intros a Hu. destruct (reals_get a) as (-> & ->). apply (proj2 Hf a Hu). Qed.

Lemma eps_rng : u <= eps <= / 4096.
Proof.
  destruct (proj2 Hf AX eq_refl) as (F1 & F2 & LU & HD & HR). destruct (fine_sane AX eq_refl) as (_ & _ & _ & H1 & H2).
  destruct (reach_ok (vget bmin AX) (vget bmax AX)).
  apply (epsr_range (vget bmin AX) (vget bmax AX) (vget n AX) (reach (vget bmin AX) (vget bmax AX)) rho); auto.
  - apply (n64 _ _ _ _ _ _ _ Hb AX eq_refl).
  - apply Hf.
Qed.

(** the data *)
Lemma data_R c : padded_cell dim n 1 c ->
  let q := cell_data gR lR c in let s := S c in q_phi q = cv s /\ q_psi q = V3 (cv_x s) (cv_y s) (cv_z s) /\
  (used dim AY = true -> q_m0 q = cv_xy s) /\ (used dim AZ = true -> q_m1 q = cv_yz s /\ q_m2 q = cv_zx s /\ q_m3 q = cv_xyz s).
Proof.
  intros Hc q s. destruct c as [[i j] k]. destruct (HSR i j k Hc) as (H1 & H2 & H3).
  pose proof (proj2 (built_gcell _ _ _ _ _ _ _ _ HbR) Hc) as Hg. pose proof (bf_ok _ _ _ _ _ _ _ (built_ok _ _ _ _ _ _ _ HbR)) as Hok.
  rewrite (aget_peek_c ov) in H1 by auto. rewrite (aget_peek_c ov) in H2 by auto. rewrite (aget_peek_c ov) in H3 by auto. unfold q, cell_data. rewrite H1, H2, H3. cbn [val q_phi q_psi q_m0 q_m1 q_m2 q_m3].
  split; [reflexivity|]. split; [reflexivity|]. pose proof dim_ok as Hd. dim_cases Hd; cbn; repeat split; try discriminate.
Qed.

Lemma data_64 c : padded_cell dim n 1 c -> good c ->
  let q := dataT ov g l c in let s := S c in is_real (q_phi q) (cv s) /\ is_real (vx (q_psi q)) (cv_x s) /\
  (used dim AY = true -> is_real (vy (q_psi q)) (cv_y s) /\ is_real (q_m0 q) (cv_xy s)) /\
  (used dim AZ = true -> is_real (vz (q_psi q)) (cv_z s) /\ is_real (q_m1 q) (cv_yz s) /\ is_real (q_m2 q) (cv_zx s) /\ is_real (q_m3 q) (cv_xyz s)).
Proof.
  intros Hc Hg q s. destruct c as [[i j] k]. destruct (HS i j k Hc Hg) as ((p & H1 & P) & (v & H2 & V1 & V2 & V3) & (m & H3 & Fm)).
  unfold q, dataT, c3, read_node, aget_v. cbn [vx vy vz]. rewrite H1, H2. cbn [bind].
  rewrite (bf_dim _ _ _ _ _ _ _ (built_ok _ _ _ _ _ _ _ Hb)).
  pose proof dim_ok as Hd. fold s in P, V1, V2, V3, Fm. dim_cases Hd; rewrite ?H3; cbn [bind].
  - cbn. repeat split; try discriminate; apply P || apply V1.
  - inversion Fm as [|m0 ? ? ? F0 Fm1]; subst. inversion Fm1; subst. cbn. repeat split; try discriminate; try apply P; try apply V1; try apply V2; auto; apply F0.
  - inversion Fm as [|m0 ? ? ? F0 Fm1]; subst. inversion Fm1 as [|m1 ? ? ? F1 Fm2]; subst. inversion Fm2 as [|m2 ? ? ? F2 Fm3]; subst. inversion Fm3 as [|m3 ? ? ? F3 Fm4]; subst. inversion Fm4; subst.
    cbn. specialize (V2 eq_refl). specialize (V3 eq_refl). tauto.
Qed.

Lemma size_1 c : Rabs c <= M -> Rabs c <= 1 * M. Proof. lra. Qed.
Lemma size_h c d : 0 < d -> Rabs c * d <= M -> Rabs c <= 1 * (M * / d).
Proof. intros Hd H. rewrite Rmult_1_l. apply Rmult_le_reg_r with d; [exact Hd|]. rewrite Rmult_assoc, Rinv_l by lra. lra. Qed.

(** any relation that holds of exact data *)
Lemma apq_ok {T} (NT : Num T) (ap : R -> R -> R -> T -> R -> Prop) (rel : T -> R -> Prop) (q : nodal T) (c : cell) :
  (forall Sc z r, okS Sc -> rel z r -> Rabs r <= 1 * Sc -> ap Sc 1 0 z r) -> padded_cell dim n 1 c -> good c ->
  (let s := S c in rel (q_phi q) (cv s) /\ rel (vx (q_psi q)) (cv_x s) /\
   (used dim AY = true -> rel (vy (q_psi q)) (cv_y s) /\ rel (q_m0 q) (cv_xy s)) /\
   (used dim AZ = true -> rel (vz (q_psi q)) (cv_z s) /\ rel (q_m1 q) (cv_yz s) /\ rel (q_m2 q) (cv_zx s) /\ rel (q_m3 q) (cv_xyz s))) ->
  apq ap dim M h q (cell_data gR lR c).
Proof.
  intros K Hc Hg (A1 & A2 & A3 & A4). destruct (data_R c Hc) as (B1 & B2 & B3 & B4). destruct (Hz c Hc Hg) as (Z1 & Z2 & Z3 & Z4).
  set (s := S c) in *. set (r := cell_data gR lR c) in *. clearbody s r.
  pose proof HM as HM'. change (moderate M) with (rng 200 M) in HM'.
  pose proof (h_rng AX eq_refl) as RX. cbn [vget] in RX. assert (PX : 0 < vx h) by (destruct RX as [RX _]; pose proof (bpow_gt_0 radix2 (-200)); cbn [Z.opp] in RX; lra).
  assert (Q1 : apq1 ap M (vx h) q r).
  { split; [rewrite B1; apply K; auto; [scales|apply size_1; auto]|rewrite B2; cbn [vx]; apply K; auto; [scales|apply size_h; auto]]. }
  assert (D : dim = 1%nat \/ dim = 2%nat \/ dim = 3%nat) by (pose proof dim_ok; lia).
  assert (Q2 : used dim AY = true -> apq2 ap M (vx h) (vy h) q r).
  { intros Hu. specialize (A3 Hu). specialize (B3 Hu). specialize (Z3 Hu). pose proof (h_rng AY Hu) as RY. cbn [vget] in RY.
    assert (PY : 0 < vy h) by (destruct RY as [RY _]; pose proof (bpow_gt_0 radix2 (-200)); cbn [Z.opp] in RY; lra).
    split; [exact Q1|]. rewrite B2, B3. cbn [vy]. split; apply K; try apply A3; try scales.
    - apply size_h; [exact PY|apply Z3].
    - rewrite Rmult_assoc, <- Rinv_mult. apply size_h; [apply Rmult_lt_0_compat; auto|apply Z3]. }
  unfold apq. destruct D as [D|[D|D]].
  - rewrite D. exact Q1.
  - rewrite D. apply Q2. rewrite D. reflexivity.
  - assert (UZ : used dim AZ = true) by (rewrite D; reflexivity). assert (UY : used dim AY = true) by (rewrite D; reflexivity). specialize (Q2 UY).
    rewrite D. cbv iota. specialize (A4 UZ). specialize (B4 UZ). specialize (Z4 UZ).
    pose proof (h_rng AY UY) as RY. pose proof (h_rng AZ UZ) as RZ. cbn [vget] in RY, RZ.
    assert (PY : 0 < vy h) by (destruct RY as [RY _]; pose proof (bpow_gt_0 radix2 (-200)); cbn [Z.opp] in RY; lra).
    assert (PZ : 0 < vz h) by (destruct RZ as [RZ _]; pose proof (bpow_gt_0 radix2 (-200)); cbn [Z.opp] in RZ; lra).
    destruct A4 as (a1 & a2 & a3 & a4). destruct B4 as (b1 & b2 & b3). destruct Z4 as (z1 & z2 & z3 & z4).
    split; [exact Q2|]. rewrite B2, b1, b2, b3. cbn [vz]. split; [|split; [|split]]; apply K; auto; try scales.
    + apply size_h; auto.
    + rewrite Rmult_assoc, <- Rinv_mult. apply size_h; [apply Rmult_lt_0_compat; auto|auto].
    + rewrite Rmult_assoc, <- Rinv_mult. apply size_h; [apply Rmult_lt_0_compat; auto|auto].
    + replace (M * / vx h * / vy h * / vz h) with (M * / (vx h * vy h * vz h)) by (field; lra). apply size_h; [apply Rmult_lt_0_compat; [apply Rmult_lt_0_compat; auto|auto]|auto].
Qed.

Lemma box_get a : vget (reals bmin) a = B2R (vget bmin a) /\ vget (reals bmax) a = B2R (vget bmax a).
Proof. apply reals_get. Qed.

(** the cells at distance at most 1 (and a little) from the exact position *)
Definition around (xR : vec3 R) (c : cell) : Prop :=
  forall a, used dim a = true -> Rabs (IZR (ccoord c a) - lc n (reals bmin) (reals bmax) a (vget xR a)) <= 1 + eps.
Lemma round_interp_at x xR : near_box dim n bmin bmax x -> near_point dim bmin bmax x xR ->
  exists f fR, interpolate ov g x l false = Ok f /\ interpolate ov gR xR lR false = Ok fR /\
    ((forall c, padded_cell dim n 1 c -> around xR c -> good c) ->
    ap64 eps M 512 (2 * errk dim) (f_phi f) (f_phi fR) /\
    forall a, if used dim a then ap64 eps (M * / vget h a) 512 (2 * errk dim) (vget (f_psi f) a) (vget (f_psi fR) a)
      else vget (f_psi f) a = nofZ 0 /\ vget (f_psi fR) a = 0).
Proof.
  intros Hx Hy. pose proof dim_ok as Hd. pose proof eps_rng as Er. pose proof u_pos as Up.
  pose proof (bf_ok _ _ _ _ _ _ _ (built_ok _ _ _ _ _ _ _ Hb)) as Hok.
  (* the axes *)
  assert (AX' : forall a, exists c, used dim a = true ->
    let b := b64_floor (lat64 (vget bmin a) (vget bmax a) (vget n a) (vget x a)) in
    let t := lc n (reals bmin) (reals bmax) a (vget xR a) in
    (IZR b <= c <= IZR b + 1 /\ IZR (Rfloor t) <= c <= IZR (Rfloor t) + 1 /\ Rabs (c - t) <= eps /\
    -1 <= c < IZR (vget n a) /\ -1 <= t < IZR (vget n a) /\
    ap64 eps 1 1 1 ((vget x a - node64 (vget bmin a) (vget bmax a) (vget n a) b) * odx64 (vget bmin a) (vget bmax a) (vget n a))%num (c - IZR b)) /\
    (-1 <= b <= vget n a - 1)%Z).
  { intros a. destruct (used dim a) eqn:Hu; [|exists 0; discriminate].
    destruct (proj2 Hf a Hu) as (F1 & F2 & LU & HD & HR). destruct (fine_sane a Hu) as (_ & _ & _ & H1 & H2). destruct (reach_ok (vget bmin a) (vget bmax a)) as (A1 & A2).
    destruct (Hx a Hu) as (Fx & Bx). pose proof (Hy a Hu) as Ny.
    replace (bpow radix2 (-46)) with (128 * u) in Ny by (unfold u; change 128 with (bpow radix2 7); rewrite <- bpow_plus; reflexivity).
    destruct (axis64 (vget bmin a) (vget bmax a) (vget n a) (reach (vget bmin a) (vget bmax a)) rho F1 F2 (n64 _ _ _ _ _ _ _ Hb a Hu) LU (conj A1 (conj A2 H1)) H2 HR (proj1 Hf) (vget x a) (vget xR a) Fx Bx Ny) as (c & H).
    exists c. intros _. unfold lc, lattice_coord. destruct (box_get a) as (-> & ->). split; [exact H|].
    apply (base64_box _ _ _ (reach (vget bmin a) (vget bmax a))); auto. apply (n64 _ _ _ _ _ _ _ Hb a Hu). }
  destruct (AX' AX) as (cx & KX). destruct (AX' AY) as (cy & KY). destruct (AX' AZ) as (cz & KZ). clear AX'.
  set (cf := fun a => match a with AX => cx | AY => cy | AZ => cz end).
  assert (K : forall a, used dim a = true ->
    let b := b64_floor (lat64 (vget bmin a) (vget bmax a) (vget n a) (vget x a)) in
    let t := lc n (reals bmin) (reals bmax) a (vget xR a) in let c := cf a in
    (IZR b <= c <= IZR b + 1 /\ IZR (Rfloor t) <= c <= IZR (Rfloor t) + 1 /\ Rabs (c - t) <= eps /\
    -1 <= c < IZR (vget n a) /\ -1 <= t < IZR (vget n a) /\
    ap64 eps 1 1 1 ((vget x a - node64 (vget bmin a) (vget bmax a) (vget n a) b) * odx64 (vget bmin a) (vget bmax a) (vget n a))%num (c - IZR b)) /\
    (-1 <= b <= vget n a - 1)%Z) by (intros [| |]; assumption).
  clear KX KY KZ. clearbody cf.
  (* the double side *)
  destruct (gen_base ov dim n 1 bmin bmax g Hb x) as (b & Eb & Vb).
  { intros a Hu. destruct (K a Hu) as (_ & Kb). cbv zeta in Kb. pose proof (n64 _ _ _ _ _ _ _ Hb a Hu). unfold INT_MIN, INT_MAX. change (2 ^ 31)%Z with 2147483648%Z in *.
    change (nfloor _) with (b64_floor (lat64 (vget bmin a) (vget bmax a) (vget n a) (vget x a))). lia. }
  change (forall a, used dim a = true -> vget b a = b64_floor (lat64 (vget bmin a) (vget bmax a) (vget n a) (vget x a))) in Vb.
  assert (Rb : forall a, used dim a = true -> (-1 <= vget b a <= vget n a - 1)%Z) by (intros a Hu; rewrite Vb by auto; apply (K a Hu)).
  destruct (eval_gen ov dim n bmin bmax g l Hb Hl Hdef x b false Eb Rb) as (xb & Exb & E64).
  set (B := bcellT dim b) in *.
  assert (CB : forall a, ccoord B a = if used dim a then vget b a else 0%Z).
  { intros a. unfold B, bcellT, project. destruct a; cbn [ccoord used vget]; auto. }
  assert (PB : forall c, is_corner dim B c -> padded_cell dim n 1 c).
  { intros c Hc a. specialize (Hc a). pose proof (good_int _ _ _ a (proj1 Hb)) as G. destruct (used dim a) eqn:Hu.
    - specialize (Rb a Hu). rewrite CB, Hu in Hc. destruct Hc as [Hc|(_ & Hc)]; rewrite Hc; lia.
    - rewrite CB, Hu in Hc. destruct Hc as [Hc|(Hc & _)]; [exact Hc|discriminate]. }
  assert (Vxb : forall a, used dim a = true -> vget xb a = node64 (vget bmin a) (vget bmax a) (vget n a) (vget b a)).
  { intros a Hu. pose proof (PB B (corner_refl dim B)) as HB. rewrite (surjective_pairing B) in HB. rewrite (surjective_pairing (fst B)) in HB.
    rewrite (gen_node _ _ _ _ _ _ _ Hb _ _ _ HB) in Exb. assert (xb = pos_at dim n 1 bmin bmax B) as -> by (rewrite <- !surjective_pairing in Exb; congruence).
    rewrite pos64 by auto. rewrite CB, Hu. reflexivity. }
  (* the common point *)
  set (xc := V3 (real (vx bmin) + (cf AX + / 2) * vx h) (real (vy bmin) + (cf AY + / 2) * vy h) (real (vz bmin) + (cf AZ + / 2) * vz h)).
  assert (Lc : forall a, used dim a = true -> lc n (reals bmin) (reals bmax) a (vget xc a) = cf a).
  { intros a Hu. pose proof (h_rng a Hu) as [Hr _]. pose proof (bpow_gt_0 radix2 (- 200)).
    assert (E : vget xc a = vget (reals bmin) a + (cf a + / 2) * vget h a) by (destruct a; reflexivity).
    unfold lc, lattice_coord. rewrite E. unfold h. rewrite hs_get. fold h. unfold h in Hr. rewrite hs_get in Hr. change (- (200))%Z with (-200)%Z in Hr. field. lra. }
  assert (InC : in_lattice dim n (reals bmin) (reals bmax) xc).
  { apply (in_lattice_lc ov dim n (reals bmin) (reals bmax) gR HbR proper_reals). intros a Hu. rewrite Lc by auto. apply (K a Hu). }
  assert (InR : in_lattice dim n (reals bmin) (reals bmax) xR).
  { apply (in_lattice_lc ov dim n (reals bmin) (reals bmax) gR HbR proper_reals). intros a Hu. apply (K a Hu). }
  set (B' := bcell dim n (reals bmin) (reals bmax) xR).
  assert (CB' : forall a, ccoord B' a = if used dim a then Rfloor (lc n (reals bmin) (reals bmax) a (vget xR a)) else 0%Z).
  { intros a. destruct a; reflexivity. }
  assert (Cell : in_cell dim n (reals bmin) (reals bmax) B xc).
  { intros a. rewrite CB. destruct (used dim a) eqn:Hu; [|reflexivity]. rewrite Lc by auto. rewrite Vb by auto. destruct (K a Hu) as ((Q & _) & _). cbv zeta in Q. lra. }
  assert (Cell' : in_cell dim n (reals bmin) (reals bmax) B' xc).
  { intros a. rewrite CB'. destruct (used dim a) eqn:Hu; [|reflexivity]. rewrite Lc by auto. destruct (K a Hu) as ((_ & Q & _) & _). cbv zeta in Q. lra. }
  assert (PB' : forall c, is_corner dim B' c -> padded_cell dim n 1 c).
  { intros c Hc a. specialize (Hc a). pose proof (good_int _ _ _ a (proj1 Hb)) as G. destruct (used dim a) eqn:Hu.
    - pose proof (bcoord_range ov dim n 1 (reals bmin) (reals bmax) gR HbR proper_reals xR a InR Hu) as R'. unfold bcoord in R'. rewrite Hu in R'.
      rewrite CB', Hu in Hc. destruct Hc as [Hc|(_ & Hc)]; rewrite Hc; lia.
    - rewrite CB', Hu in Hc. destruct Hc as [Hc|(Hc & _)]; [exact Hc|discriminate]. }
  destruct (interp_any ov dim n (reals bmin) (reals bmax) gR lR HbR HlR proper_reals Hdef B xc InC Cell) as (fc & Efc & Pc & Sc).
  destruct (interp_any ov dim n (reals bmin) (reals bmax) gR lR HbR HlR proper_reals Hdef B' xc InC Cell') as (fc' & Efc' & Pc' & Sc').
  assert (fc' = fc) by congruence. subst fc'.
  destruct (interp_any ov dim n (reals bmin) (reals bmax) gR lR HbR HlR proper_reals Hdef B' xR InR (base_in_cell dim n (reals bmin) (reals bmax) xR)) as (fR & EfR & PR & SR).
  exists (hermT dim (dataT ov g l) B (vmul (vsub x xb) (g_odx g)) (g_dx g) (g_odx g) false), fR.
  split; [exact E64|]. split; [exact EfR|]. intros HG.
  assert (GB : forall c, is_corner dim B c -> good c).
  { intros c Hc. apply HG; [apply PB; exact Hc|]. intros a Hu. specialize (Hc a). rewrite CB, Hu in Hc. rewrite Vb in Hc by auto.
    destruct (K a Hu) as ((Q1 & _ & Q3 & _) & _). cbv zeta in Q1, Q3. apply Rabs_le. apply Rabs_le_inv in Q3.
    destruct Hc as [Hc|(_ & Hc)]; rewrite Hc; rewrite ?plus_IZR; lra. }
  assert (GB' : forall c, is_corner dim B' c -> good c).
  { intros c Hc. apply HG; [apply PB'; exact Hc|]. intros a Hu. specialize (Hc a). rewrite CB', Hu in Hc.
    pose proof (Rfloor_spec (lc n (reals bmin) (reals bmax) a (vget xR a))) as Ft. apply Rabs_le.
    destruct Hc as [Hc|(_ & Hc)]; rewrite Hc; rewrite ?plus_IZR; lra. }
  (* double against the common point *)
  pose proof HM as HM'. change (moderate M) with (rng 200 M) in HM'.
  assert (Hox : forall a, vget (V3 (/ vx h) (/ vy h) (/ vz h)) a = / vget h a) by (intros [| |]; reflexivity).
  assert (Vdx : forall a, vget (g_dx g) a = dx64 (vget bmin a) (vget bmax a) (vget n a)).
  { intros a. rewrite (bf_dx _ _ _ _ _ _ _ (built_ok _ _ _ _ _ _ _ Hb)). destruct a; reflexivity. }
  assert (Vox : forall a, used dim a = true -> vget (g_odx g) a = odx64 (vget bmin a) (vget bmax a) (vget n a)).
  { intros a Hu. rewrite (bf_odx _ _ _ _ _ _ _ (built_ok _ _ _ _ _ _ _ Hb) a Hu), Vdx. reflexivity. }
  assert (okh : forall a, used dim a = true -> okS (vget h a) /\ okS (/ vget h a)).
  { intros a Hu. pose proof (h_rng a Hu). split; scales. }
  destruct (round_any (ap64 eps) (calc64 eps Er) dim M h (g_dx g) (g_odx g) Hd HM' h_rng) with (Q := dataT ov g l) (Qr := cell_data gR lR) (b := B)
    (e := vmul (vsub x xb) (g_odx g)) (t := loc dim n (reals bmin) (reals bmax) B xc) as (U1 & U2).
  { intros a Hu. destruct (okh a Hu) as (O1 & O2). destruct (proj2 Hf a Hu) as (F1 & F2 & LU & HD & HR). destruct (fine_sane a Hu) as (_ & _ & _ & H1 & H2). destruct (reach_ok (vget bmin a) (vget bmax a)) as (A1 & A2).
    rewrite h_get in *.
    rewrite Vdx.
    apply (dx_ap (vget bmin a) (vget bmax a) (vget n a) (reach (vget bmin a) (vget bmax a)) rho F1 F2 (n64 _ _ _ _ _ _ _ Hb a Hu) LU (conj A1 (conj A2 H1)) H2 HR (proj1 Hf) O1). }
  { intros a Hu. destruct (okh a Hu) as (O1 & O2). destruct (proj2 Hf a Hu) as (F1 & F2 & LU & HD & HR). destruct (fine_sane a Hu) as (_ & _ & _ & H1 & H2). destruct (reach_ok (vget bmin a) (vget bmax a)) as (A1 & A2).
    rewrite Hox. rewrite h_get in *. rewrite Vox by auto.
    apply (odx_ap (vget bmin a) (vget bmax a) (vget n a) (reach (vget bmin a) (vget bmax a)) rho F1 F2 (n64 _ _ _ _ _ _ _ Hb a Hu) LU (conj A1 (conj A2 H1)) H2 HR (proj1 Hf) O1 O2). }
  { intros c Hc. apply (apq_ok NumB64 (ap64 eps) is_real); [|apply PB; auto|apply GB; auto|apply data_64; [apply PB|apply GB]; auto].
    intros Sc0 z r O1 [O2 O3] O4. split; [exact O1|]. split; [lra|]. split; [lra|]. split; [exact O2|]. split; [exact O4|].
    unfold real in O3. rewrite O3, (Rminus_diag_eq r r) by reflexivity. rewrite Rabs_R0. lra. }
  { intros a Hu. rewrite loc_get, Hu, Lc, CB, Hu by auto.
    assert (E : vget (vmul (vsub x xb) (g_odx g)) a = ((vget x a - vget xb a) * vget (g_odx g) a)%num) by (destruct a; reflexivity).
    rewrite E, Vox, Vxb by auto. rewrite Vb by auto. destruct (K a Hu) as ((Q & _ & _ & _ & _ & Q') & _). cbv zeta in Q, Q'. split; [exact Q'|lra]. }
  (* the common point against the exact position *)
  assert (Er' : 0 <= eps <= / 4096) by lra.
  assert (same : forall Sc0 r, okS Sc0 -> Rabs r <= 1 * Sc0 -> apR eps Sc0 1 0 r r).
  { intros Sc0 r O1 O4. split; [exact O1|]. split; [lra|]. split; [lra|]. split; [exact O4|]. rewrite (Rminus_diag_eq r r) by reflexivity. rewrite Rabs_R0. lra. }
  assert (same1 : forall Sc0, okS Sc0 -> apR eps Sc0 1 1 Sc0 Sc0).
  { intros Sc0 O1. pose proof (okS_pos _ O1). split; [exact O1|]. split; [lra|]. split; [lra|]. split; [rewrite Rabs_pos_eq; lra|]. rewrite (Rminus_diag_eq Sc0 Sc0) by reflexivity.
    rewrite Rabs_R0. apply Rmult_le_pos; lra. }
  destruct (round_any (apR eps) (calcR eps Er') dim M h h (V3 (/ vx h) (/ vy h) (/ vz h)) Hd HM' h_rng) with (Q := cell_data gR lR) (Qr := cell_data gR lR) (b := B')
    (e := loc dim n (reals bmin) (reals bmax) B' xc) (t := loc dim n (reals bmin) (reals bmax) B' xR) as (W1 & W2).
  { intros a Hu. apply same1. apply (okh a Hu). }
  { intros a Hu. rewrite Hox. apply same1. apply (okh a Hu). }
  { intros c Hc. apply (apq_ok NumR (apR eps) eq); [|apply PB'; auto|apply GB'; auto|].
    - intros Sc0 z r O1 -> O4. apply same; auto.
    - destruct (data_R c (PB' c Hc)) as (B1 & B2 & B3 & B4). cbv zeta. rewrite B1, B2. cbn [vx vy vz]. split; [reflexivity|]. split; [reflexivity|]. split.
      + intros Hu. rewrite (B3 Hu). auto.
      + intros Hu. destruct (B4 Hu) as (-> & -> & ->). auto. }
  { intros a Hu. rewrite !loc_get, Hu, Lc, CB', Hu by auto. destruct (K a Hu) as ((_ & Q & Q' & _) & _). cbv zeta in Q, Q'.
    set (t := lc n (reals bmin) (reals bmax) a (vget xR a)) in *. pose proof (Rfloor_spec t) as Ft.
    split; [|lra]. split; [apply okS_1|]. split; [lra|]. split; [lra|]. split; [rewrite Rabs_pos_eq; lra|].
    replace (cf a - IZR (Rfloor t) - (t - IZR (Rfloor t))) with (cf a - t) by ring. lra. }
  (* together *)
  set (o := V3 (/ vx h) (/ vy h) (/ vz h)) in *.
  rewrite herm_HD in U1 by exact Hd. cbn [f_phi] in U1. 
  assert (W1' : apR eps M 512 (errk dim) (f_phi fc) (f_phi fR)).
  { change (hermT dim (cell_data gR lR) B' (loc dim n (reals bmin) (reals bmax) B' xc) h o false) with (herm dim (cell_data gR lR) B' (loc dim n (reals bmin) (reals bmax) B' xc) h o false) in W1.
    rewrite !herm_HD in W1 by exact Hd. cbn [f_phi] in W1. rewrite Pc', PR. exact W1. }
  assert (U1' : ap64 eps M 512 (errk dim) (f_phi (hermT dim (dataT ov g l) B (vmul (vsub x xb) (g_odx g)) (g_dx g) (g_odx g) false)) (f_phi fc)).
  { rewrite Pc. exact U1. }
  assert (E0 : 0 <= errk dim) by (unfold errk; destruct dim as [|[|[|]]]; lra). split.
  { destruct U1' as (o1 & o2 & o3 & o4 & _ & u1). destruct W1' as (_ & _ & _ & o5 & w1). split; [exact o1|]. split; [exact o2|]. split; [lra|]. split; [exact o4|]. split; [exact o5|].
    set (y := B2R _) in *. replace (y - f_phi fR) with ((y - f_phi fc) + (f_phi fc - f_phi fR)) by ring. eapply Rle_trans; [apply Rabs_triang|]. lra. }
  intros a. destruct (used dim a) eqn:Hu.
  2: { split.
    - assert (D : dim = 1%nat \/ dim = 2%nat \/ dim = 3%nat) by lia. destruct D as [D|[D|D]]; rewrite D in Hu |- *; destruct a; try discriminate Hu; reflexivity.
    - rewrite SR. unfold hpsi. rewrite Hu. reflexivity. }
  specialize (U2 a Hu). specialize (W2 a Hu).
  change (hermT dim (cell_data gR lR) B' (loc dim n (reals bmin) (reals bmax) B' xc) h o false) with (herm dim (cell_data gR lR) B' (loc dim n (reals bmin) (reals bmax) B' xc) h o false) in W2.
  assert (PS : forall Bq xq, vget (f_psi (herm dim (cell_data gR lR) Bq (loc dim n (reals bmin) (reals bmax) Bq xq) h o false)) a = hpsi dim (cell_data gR lR) Bq (loc dim n (reals bmin) (reals bmax) Bq xq) h o a).
  { intros Bq xq. rewrite herm_HD by exact Hd. destruct a; reflexivity. }
  rewrite PS in U2. rewrite !PS in W2. rewrite <- (Sc a : _ = hpsi dim (cell_data gR lR) B (loc dim n (reals bmin) (reals bmax) B xc) h o a) in U2.
  rewrite <- (Sc' a : _ = hpsi dim (cell_data gR lR) B' (loc dim n (reals bmin) (reals bmax) B' xc) h o a) in W2.
  rewrite <- (SR a : _ = hpsi dim (cell_data gR lR) B' (loc dim n (reals bmin) (reals bmax) B' xR) h o a) in W2.
  destruct U2 as (o1 & o2 & o3 & o4 & _ & u1). destruct W2 as (_ & _ & _ & o5 & w1). split; [exact o1|]. split; [exact o2|]. split; [lra|]. split; [exact o4|]. split; [exact o5|].
  set (y := B2R _) in *. set (z := vget (f_psi fR) a) in *. replace (y - z) with ((y - vget (f_psi fc) a) + (vget (f_psi fc) a - z)) by ring. eapply Rle_trans; [apply Rabs_triang|]. lra.
Qed.
End Interp.

(** data everywhere *)
Lemma round_interp ov dim n bmin bmax g l gR lR S M rho : built ov dim n 1 bmin bmax g -> built ov dim n 1 (reals bmin) (reals bmax) gR ->
  levelset_on g l -> levelset_on gR lR -> interp_defined ov dim -> fine_box dim rho n bmin bmax ->
  stores64 ov dim n 1 g l S -> stores ov dim n 1 gR lR S -> moderate M -> let h := hs n (reals bmin) (reals bmax) in sized dim n 1 h M S ->
  forall x xR, near_box dim n bmin bmax x -> near_point dim bmin bmax x xR ->
  exists f fR, interpolate ov g x l false = Ok f /\ interpolate ov gR xR lR false = Ok fR /\
    ap64 (epsr rho) M 512 (2 * errk dim) (f_phi f) (f_phi fR) /\
    forall a, if used dim a then ap64 (epsr rho) (M * / vget h a) 512 (2 * errk dim) (vget (f_psi f) a) (vget (f_psi fR) a)
      else vget (f_psi f) a = nofZ 0 /\ vget (f_psi fR) a = 0.
Proof.
  intros Hb HbR Hl HlR Hdef Hf HS HSR HM h Hz x xR Hx Hy.
  destruct (round_interp_at ov dim n bmin bmax g l gR lR S M rho (fun _ => True) Hb HbR Hl HlR Hdef Hf (fun i j k Hp _ => HS i j k Hp) HSR HM (fun c Hp _ => Hz c Hp) x xR Hx Hy)
    as (f & fR & E & ER & K). destruct (K ltac:(auto)) as (K1 & K2). exists f, fR. split; [exact E|]. split; [exact ER|]. split; [exact K1|exact K2].
Qed.
