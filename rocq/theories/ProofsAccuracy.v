(** The error of tensor product Hermite interpolation. *)
From Coq Require Import ZArith List Reals Lra Lia.
From Verif Require Import Base Num ModelVec ModelGrid ModelArray ModelInterp SpecGrid SpecInterp SpecGradient SpecAccuracy
  ProofsBase ProofsGrid ProofsGridProps ProofsHermite ProofsHermiteCell ProofsHermiteErr.
Open Scope R_scope.

Definition sc (d : bool) (h z : R) : R := if d then z / h else z.
Lemma Hw_sc w d h p0 s0 p1 s1 k : four w -> sc d h (Hw w p0 s0 p1 s1 k) = Hw w (sc d h p0) (sc d h s0) (sc d h p1) (sc d h s1) k.
Proof. intros (w0 & w1 & w2 & w3 & ->). unfold sc, Hw. destruct d; [unfold Rdiv; ring|reflexivity]. Qed.

(** one direction, the end data with errors *)
Lemma one_way d (f d1 d2 d3 d4 : R -> R) a h M e p0 s0 p1 s1 A B : 0 < h -> derivs a (a + h) f [d1; d2; d3; d4] ->
  (forall t, a <= t <= a + h -> Rabs (d4 t) <= M) -> 0 <= e <= 1 ->
  Rabs (p0 - f a) <= A -> Rabs (p1 - f (a + h)) <= A -> Rabs (s0 - d1 a) <= B -> Rabs (s1 - d1 (a + h)) <= B ->
  Rabs (sc d h (Hw (wts d e) p0 s0 p1 s1 h) - (if d then d1 else f) (a + e * h)) <= own d h M + amp d h A B.
Proof.
  intros Hh D HM He P0 P1 S0 S1. unfold own, amp, sc. destruct d.
  - pose proof (slope_err f d1 d2 d3 d4 a h M Hh D HM e He) as E1.
    pose proof (slope_stable e p0 s0 p1 s1 _ _ _ _ h A B He Hh P0 P1 S0 S1) as E2.
    match type of E1 with Rabs (?u - ?v) <= _ => match type of E2 with Rabs (?z - _) <= _ => replace (z - v) with ((z - u) + (u - v)) by ring end end.
    eapply Rle_trans; [apply Rabs_triang|]. lra.
  - pose proof (value_err f d1 d2 d3 d4 a h M Hh D HM e He) as E1.
    pose proof (value_stable e p0 s0 p1 s1 _ _ _ _ h A B He Hh P0 P1 S0 S1) as E2.
    match type of E1 with Rabs (?u - ?v) <= _ => match type of E2 with Rabs (?z - _) <= _ => replace (z - v) with ((z - u) + (u - v)) by ring end end.
    eapply Rle_trans; [apply Rabs_triang|]. lra.
Qed.
Lemma own_exact d (f d1 d2 d3 d4 : R -> R) a h M e : 0 < h -> derivs a (a + h) f [d1; d2; d3; d4] ->
  (forall t, a <= t <= a + h -> Rabs (d4 t) <= M) -> 0 <= e <= 1 ->
  Rabs (sc d h (Hw (wts d e) (f a) (d1 a) (f (a + h)) (d1 (a + h)) h) - (if d then d1 else f) (a + e * h)) <= own d h M.
Proof.
  intros Hh D HM He. unfold own, sc. destruct d; [apply (slope_err f d1 d2 d3 d4 a h M Hh D HM e He)|apply (value_err f d1 d2 d3 d4 a h M Hh D HM e He)].
Qed.
Lemma within a h e : 0 < h -> 0 <= e <= 1 -> a <= a + e * h <= a + h.
Proof. intros Hh He. split; [|replace h with (1 * h) at 2 by ring; apply Rplus_le_compat_l, Rmult_le_compat_r; lra]. assert (0 <= e * h) by (apply Rmult_le_pos; lra). lra. Qed.

(** two directions *)
Section Two.
Variables (G : nat -> nat -> R -> R -> R) (a h c k : R) (M : nat -> nat -> R).
Hypothesis Hh : 0 < h.
Hypothesis Hk : 0 < k.
Hypothesis SG : forall i j u v, derivable_pt_lim (fun t => G i j t v) u (G (S i) j u v) /\ derivable_pt_lim (fun t => G i j u t) v (G i (S j) u v).
Hypothesis HM : forall i j u v, (i <= 4)%nat -> (j <= 4)%nat -> a <= u <= a + h -> c <= v <= c + k -> Rabs (G i j u v) <= M i j.
Definition line (dv : bool) (i : nat) (u r : R) : R :=
  Hw (wts dv r) (G i 0%nat u c) (G i 1%nat u c) (G i 0%nat u (c + k)) (G i 1%nat u (c + k)) k.
Lemma line_err dv i u r : (i <= 4)%nat -> a <= u <= a + h -> 0 <= r <= 1 -> Rabs (sc dv k (line dv i u r) - G i (ord dv) u (c + r * k)) <= own dv k (M i 4%nat).
Proof.
  intros Hi Hu Hr.
  pose proof (own_exact dv (G i 0%nat u) (G i 1%nat u) (G i 2%nat u) (G i 3%nat u) (G i 4%nat u) c k (M i 4%nat) r Hk) as E.
  destruct dv; cbn [ord]; apply E; try assumption; try (intros t Ht; apply HM; auto; lia);
    cbn [derivs]; repeat split; intros; apply SG.
Qed.
Definition sheet (du dv : bool) (e r : R) : R := Hw (wts du e) (line dv 0 a r) (line dv 1 a r) (line dv 0 (a + h) r) (line dv 1 (a + h) r) h.
Lemma sheet_err du dv e r : 0 <= e <= 1 -> 0 <= r <= 1 ->
  Rabs (sc du h (sc dv k (sheet du dv e r)) - G (ord du) (ord dv) (a + e * h) (c + r * k)) <=
  own du h (M 4%nat (ord dv)) + amp du h (own dv k (M 0 4)%nat) (own dv k (M 1 4)%nat).
Proof.
  intros He Hr. unfold sheet. rewrite Hw_sc by apply four_wts. set (v := c + r * k).
  pose proof (within c k r Hk Hr) as Bv. fold v in Bv.
  pose proof (one_way du (fun t => G 0%nat (ord dv) t v) (fun t => G 1%nat (ord dv) t v) (fun t => G 2%nat (ord dv) t v) (fun t => G 3%nat (ord dv) t v) (fun t => G 4%nat (ord dv) t v)
     a h (M 4%nat (ord dv)) e (sc dv k (line dv 0 a r)) (sc dv k (line dv 1 a r)) (sc dv k (line dv 0 (a + h) r)) (sc dv k (line dv 1 (a + h) r))
     (own dv k (M 0 4)%nat) (own dv k (M 1 4)%nat) Hh) as E.
  assert (K : (ord dv <= 4)%nat) by (destruct dv; cbn; lia).
  destruct du; cbn [ord]; cbv beta in E; apply E; try assumption; try (apply line_err; auto; lra || lia);
    try (intros t Ht; apply HM; auto; lia); cbn [derivs]; repeat split; intros; apply SG.
Qed.
End Two.

(** three directions *)
Section Three.
Variables (D : nat -> nat -> nat -> R -> R -> R -> R) (a h c k b m : R) (M : nat -> nat -> nat -> R).
Hypothesis Hh : 0 < h.
Hypothesis Hk : 0 < k.
Hypothesis Hm : 0 < m.
Hypothesis SD : smooth D.
Hypothesis HM : forall i j l u v w, (i <= 4)%nat -> (j <= 4)%nat -> (l <= 4)%nat -> a <= u <= a + h -> c <= v <= c + k -> b <= w <= b + m -> Rabs (D i j l u v w) <= M i j l.
Definition plate (dv dw : bool) (i : nat) (u r q : R) : R := sheet (fun j l => D i j l u) c k b m dv dw r q.
Lemma plate_err dv dw i u r q : (i <= 4)%nat -> a <= u <= a + h -> 0 <= r <= 1 -> 0 <= q <= 1 ->
  Rabs (sc dv k (sc dw m (plate dv dw i u r q)) - D i (ord dv) (ord dw) u (c + r * k) (b + q * m)) <=
  own dv k (M i 4%nat (ord dw)) + amp dv k (own dw m (M i 0 4)%nat) (own dw m (M i 1 4)%nat).
Proof.
  intros Hi Hu Hr Hq. apply (sheet_err (fun j l => D i j l u) c k b m (M i)); try assumption.
  - intros j l v w. split; apply SD.
  - intros j l v w Hj Hl Hv Hw. apply HM; assumption.
Qed.
Definition block (du dv dw : bool) (e r q : R) : R :=
  Hw (wts du e) (plate dv dw 0 a r q) (plate dv dw 1 a r q) (plate dv dw 0 (a + h) r q) (plate dv dw 1 (a + h) r q) h.
Lemma block_err du dv dw e r q : 0 <= e <= 1 -> 0 <= r <= 1 -> 0 <= q <= 1 ->
  let yz i := own dv k (M i 4%nat (ord dw)) + amp dv k (own dw m (M i 0 4)%nat) (own dw m (M i 1 4)%nat) in
  Rabs (sc du h (sc dv k (sc dw m (block du dv dw e r q))) - D (ord du) (ord dv) (ord dw) (a + e * h) (c + r * k) (b + q * m)) <=
  own du h (M 4%nat (ord dv) (ord dw)) + amp du h (yz 0%nat) (yz 1%nat).
Proof.
  intros He Hr Hq yz. unfold block. rewrite Hw_sc by apply four_wts. rewrite Hw_sc by apply four_wts.
  set (v := c + r * k). set (w := b + q * m).
  pose proof (within c k r Hk Hr) as Bv. fold v in Bv. pose proof (within b m q Hm Hq) as Bw. fold w in Bw.
  set (f := fun i t => D i (ord dv) (ord dw) t v w). set (P := fun i u => sc dv k (sc dw m (plate dv dw i u r q))).
  pose proof (one_way du (f 0%nat) (f 1%nat) (f 2%nat) (f 3%nat) (f 4%nat) a h (M 4%nat (ord dv) (ord dw)) e (P 0%nat a) (P 1%nat a) (P 0%nat (a + h)) (P 1%nat (a + h)) (yz 0%nat) (yz 1%nat) Hh) as E.
  assert (K1 : (ord dv <= 4)%nat) by (destruct dv; cbn; lia). assert (K2 : (ord dw <= 4)%nat) by (destruct dw; cbn; lia).
  destruct du; cbn [ord]; unfold f, P in E; cbv beta in E; apply E; try assumption; try (apply plate_err; auto; lra || lia);
    try (intros t Ht; apply HM; auto; lia); cbn [derivs]; repeat split; intros; apply SD.
Qed.
End Three.

(** ** The interpolant of one cell *)
From Verif Require Import ProofsArray ProofsHermiteExact ProofsInterp ProofsInterpProps ProofsInterpMore.
Definition sc3 (s : option axis) (h : vec3 R) (z : R) : R := match s with Some a => z * / vget h a | None => z end.

Section Cell.
Variables (ov : ovmode) (dim : nat) (n : vec3 Z) (bmin bmax : vec3 R) (g : grid R) (l : levelset R).
Hypothesis Hb : built ov dim n 1 bmin bmax g.
Hypothesis Hl : levelset_on g l.
Hypothesis Hbox : proper_box dim bmin bmax.
Hypothesis Hdef : interp_defined ov dim.
Variables (D : nat -> nat -> nat -> R -> R -> R -> R) (M : nat -> nat -> nat -> R).
Hypothesis SD : smooth D.
Hypothesis HM : forall i j k p, (i <= 4)%nat -> (j <= 4)%nat -> (k <= 4)%nat -> centre_box dim n bmin bmax p ->
  Rabs (D i j k (vx p) (vy p) (vz p)) <= M i j k.
Notation h := (hs n bmin bmax).
Notation pos := (centre_pos dim n bmin bmax).

(** the cell of x lies in the box of the centres *)
Lemma cell_box x a t : in_lattice dim n bmin bmax x -> used dim a = true ->
  vget (pos (bcell dim n bmin bmax x)) a <= t <= vget (pos (bcell dim n bmin bmax x)) a + vget h a ->
  let hh := spacing (vget bmin a) (vget bmax a) (vget n a) in vget bmin a - hh / 2 <= t <= vget bmax a + hh / 2.
Proof.
  intros Hx Hu Ht. cbv zeta. rewrite centre_coord, Hu, hs_get, bcell_coord in Ht.
  pose proof (bcoord_range ov dim n 1 bmin bmax g Hb Hbox x a Hx Hu) as [B1 B2].
  pose proof (h_pos ov dim n 1 bmin bmax g Hb Hbox a Hu) as Hh.
  assert (EN : vget bmin a + IZR (vget n a) * spacing (vget bmin a) (vget bmax a) (vget n a) = vget bmax a).
  { unfold spacing. field. apply IZR_neq. pose proof (good_used _ _ _ a (proj1 Hb) Hu). lia. }
  unfold centre in Ht. set (sp := spacing _ _ _) in *. clearbody sp.
  assert (L1 : -1 <= IZR (bcoord dim n bmin bmax x a)) by (apply IZR_le; lia).
  assert (L2 : IZR (bcoord dim n bmin bmax x a) + 1 <= IZR (vget n a)) by (rewrite <- plus_IZR; apply IZR_le; lia).
  set (b := IZR (bcoord _ _ _ _ _ _)) in *. clearbody b.
  apply Rmult_le_compat_r with (r := sp) in L1; [|lra]. apply Rmult_le_compat_r with (r := sp) in L2; [|lra]. lra.
Qed.

Lemma HD_err s x : in_lattice dim n bmin bmax x -> (match s with Some a => used dim a = true | None => True end) ->
  let b := bcell dim n bmin bmax x in let e := loc dim n bmin bmax b x in let p := flat dim x in
  Rabs (sc3 s h (HD dim (Wt s e) (fun c => toQ (jet D (pos c))) b h)
        - match s with Some a => first_order D a | None => D 0%nat 0%nat 0%nat end (vx p) (vy p) (vz p)) <= error_bound dim s h M.
Proof.
  intros Hx Hs b e p.
  assert (He : forall a, 0 <= vget e a <= 1).
  { intros a. pose proof (base_in_cell dim n bmin bmax x a) as H. unfold e. rewrite loc_get. fold b in H. destruct (used dim a); lra. }
  assert (Ex : forall a, used dim a = true -> vget p a = vget (pos b) a + vget e a * vget h a).
  { intros a Hu. unfold e, b. rewrite loc_get, centre_coord, hs_get, Hu. unfold lc, lattice_coord, centre, p.
    pose proof (h_pos ov dim n 1 bmin bmax g Hb Hbox a Hu).
    replace (vget (flat dim x) a) with (vget x a) by (destruct a; cbn [flat vget vx vy vz]; rewrite ?Hu; reflexivity).
    set (sp := spacing _ _ _) in *. field. lra. }
  assert (Hp : forall a, used dim a = true -> 0 < vget h a) by (intros; eapply hs_pos; eauto).
  pose proof (fun a t => cell_box x a t Hx) as CB. fold b in CB.
  pose proof (proj1 (proj1 Hb)) as Hd.
  assert (P0 : forall a, used dim a = false -> vget p a = 0).
  { intros a Hu. unfold p. destruct a; cbn [flat vget vx vy vz]; [destruct dim as [|[|[|]]]; cbn in Hu; discriminate| |]; rewrite Hu; reflexivity. }
  pose proof (He AX) as HeX. pose proof (He AY) as HeY. pose proof (He AZ) as HeZ.
  pose proof (P0 AY) as P0Y. pose proof (P0 AZ) as P0Z. pose proof (Ex AX) as ExX. pose proof (Ex AY) as ExY. pose proof (Ex AZ) as ExZ.
  pose proof (CB AX) as CX. pose proof (CB AY) as CY. pose proof (CB AZ) as CZ. pose proof (Hp AX) as HX. pose proof (Hp AY) as HY. pose proof (Hp AZ) as HZ.
  clearbody b e p. clear He Ex Hp CB P0. destruct b as [[i j] k].
  assert (EP : forall i j k, pos (i, j, k) = V3 (vget (pos (i, 0, 0)%Z) AX) (vget (pos (0, j, 0)%Z) AY) (vget (pos (0, 0, k)%Z) AZ)) by reflexivity.
  rewrite EP in *. cbn [vget vx vy vz] in *.
  assert (SX : used dim AX = true -> vx (pos (i + 1, 0, 0)%Z) = vx (pos (i, 0, 0)%Z) + vx h).
  { intros Hu. unfold centre_pos. cbn [vx ccoord]. rewrite Hu. unfold centre, hs. cbn [vx vget]. rewrite plus_IZR. ring. }
  assert (SY : used dim AY = true -> vy (pos (0, j + 1, 0)%Z) = vy (pos (0, j, 0)%Z) + vy h).
  { intros Hu. unfold centre_pos. cbn [vy ccoord]. rewrite Hu. unfold centre, hs. cbn [vy vget]. rewrite plus_IZR. ring. }
  assert (SZ : used dim AZ = true -> vz (pos (0, 0, k + 1)%Z) = vz (pos (0, 0, k)%Z) + vz h).
  { intros Hu. unfold centre_pos. cbn [vz ccoord]. rewrite Hu. unfold centre, hs. cbn [vz vget]. rewrite plus_IZR. ring. }
  assert (ZY : used dim AY = false -> forall j, vy (pos (0, j, 0)%Z) = 0) by (intros Hu j'; unfold centre_pos; cbn [vy]; rewrite Hu; reflexivity).
  assert (ZZ : used dim AZ = false -> forall k, vz (pos (0, 0, k)%Z) = 0) by (intros Hu k'; unfold centre_pos; cbn [vz]; rewrite Hu; reflexivity).
  set (X := fun i => vx (pos (i, 0, 0)%Z)) in *. set (Y := fun j => vy (pos (0, j, 0)%Z)) in *. set (Z := fun k => vz (pos (0, 0, k)%Z)) in *.
  assert (EQ : forall W, HD dim W (fun c => toQ (jet D (pos c))) (i, j, k) h =
     HD dim W (fun c => match c with (i, j, k) => toQ (jet D (V3 (X i) (Y j) (Z k))) end) (i, j, k) h).
  { intros W. apply HD_ext; [exact Hd|]. intros [[i' j'] k'] _. rewrite (EP i' j' k'). repeat split; auto. }
  rewrite EQ. clear EQ EP.
  assert (HM' : forall i j k u v w, (i <= 4)%nat -> (j <= 4)%nat -> (k <= 4)%nat -> centre_box dim n bmin bmax (V3 u v w) -> Rabs (D i j k u v w) <= M i j k).
  { intros i' j' k' u v w H1 H2 H3 H4. exact (HM i' j' k' (V3 u v w) H1 H2 H3 H4). }
  change (vx (pos (i, 0, 0)%Z)) with (X i) in *. change (vx (pos (i + 1, 0, 0)%Z)) with (X (i + 1)%Z) in *.
  change (vy (pos (0, j, 0)%Z)) with (Y j) in *. change (vy (pos (0, j + 1, 0)%Z)) with (Y (j + 1)%Z) in *.
  change (vz (pos (0, 0, k)%Z)) with (Z k) in *. change (vz (pos (0, 0, k + 1)%Z)) with (Z (k + 1)%Z) in *.
  change (forall j, vy (pos (0, j, 0)%Z) = 0) with (forall j, Y j = 0) in ZY. change (forall k, vz (pos (0, 0, k)%Z) = 0) with (forall k, Z k = 0) in ZZ.
  clearbody X Y Z.
  assert (D3 : dim = 1%nat \/ dim = 2%nat \/ dim = 3%nat) by lia.
  destruct D3 as [D3|[D3|D3]]; unfold HD, error_bound; rewrite D3; rewrite D3 in SX, SY, SZ, ZY, ZZ, P0Y, P0Z, ExX, ExY, ExZ, CX, CY, CZ, HX, HY, HZ, Hs;
    unfold centre_box in HM'; rewrite D3 in HM'; cbn [used Nat.leb] in *.
  - specialize (SX eq_refl). specialize (ZY eq_refl). specialize (ZZ eq_refl). specialize (P0Y eq_refl). specialize (P0Z eq_refl).
    specialize (ExX eq_refl). specialize (HX eq_refl). cbn [toQ jet q_phi q_psi cv cv_x vx vy vz cstep]. rewrite SX, ExX, ZY, ZZ, P0Y, P0Z. unfold Wt. cbn [vget].
    pose proof (own_exact (flag s AX) (fun t => D 0%nat 0%nat 0%nat t 0 0) (fun t => D 1%nat 0%nat 0%nat t 0 0) (fun t => D 2%nat 0%nat 0%nat t 0 0)
      (fun t => D 3%nat 0%nat 0%nat t 0 0) (fun t => D 4%nat 0%nat 0%nat t 0 0) (X i) (vx h) (M 4 0 0)%nat (vx e) HX) as E.
    destruct s as [[| |]|]; try discriminate; cbn [flag axis_eqb sc3 sc first_order vget] in *; apply E; auto;
      try (cbn [derivs]; repeat split; intros; apply SD);
      (intros t Ht; apply HM'; try lia; intros [| |]; cbn [used Nat.leb vget vx vy vz]; auto; apply (CX t eq_refl Ht)).
  - specialize (SX eq_refl). specialize (SY eq_refl). specialize (ZZ eq_refl). specialize (P0Z eq_refl).
    specialize (ExX eq_refl). specialize (ExY eq_refl). specialize (HX eq_refl). specialize (HY eq_refl).
    unfold H2w. cbn [toQ jet q_phi q_psi q_m0 cv cv_x cv_y cv_xy vx vy vz cstep]. rewrite SX, SY, ExX, ExY, ZZ, P0Z. unfold Wt. cbn [vget].
    pose proof (sheet_err (fun i j u v => D i j 0%nat u v 0) (X i) (vx h) (Y j) (vy h) (fun i j => M i j 0%nat) HX HY) as E.
    assert (E1 : forall i j u v, derivable_pt_lim (fun t => D i j 0%nat t v 0) u (D (S i) j 0%nat u v 0) /\ derivable_pt_lim (fun t => D i j 0%nat u t 0) v (D i (S j) 0%nat u v 0)) by (intros; split; apply SD).
    specialize (E E1). assert (E2 : forall i' j' u v, (i' <= 4)%nat -> (j' <= 4)%nat -> X i <= u <= X i + vx h -> Y j <= v <= Y j + vy h -> Rabs (D i' j' 0%nat u v 0) <= M i' j' 0%nat).
    { intros i' j' u v H1 H2 Hu Hv. apply HM'; auto; try lia. intros [| |]; cbn [used Nat.leb vget vx vy vz]; auto. }
    specialize (E E2 (flag s AX) (flag s AY) (vx e) (vy e) HeX HeY). unfold sheet, line in E.
    destruct s as [[| |]|]; try discriminate; cbn [flag axis_eqb sc3 sc first_order vget ord] in *; exact E.
  - specialize (SX eq_refl). specialize (SY eq_refl). specialize (SZ eq_refl).
    specialize (ExX eq_refl). specialize (ExY eq_refl). specialize (ExZ eq_refl). specialize (HX eq_refl). specialize (HY eq_refl). specialize (HZ eq_refl).
    unfold corners3, H3w. cbn [toQ jet q_phi q_psi q_m0 q_m1 q_m2 q_m3 cv cv_x cv_y cv_z cv_xy cv_yz cv_zx cv_xyz vx vy vz cstep]. rewrite SX, SY, SZ, ExX, ExY, ExZ. unfold Wt. cbn [vget].
    pose proof (block_err D (X i) (vx h) (Y j) (vy h) (Z k) (vz h) M HX HY HZ SD) as E.
    assert (E2 : forall i' j' k' u v w, (i' <= 4)%nat -> (j' <= 4)%nat -> (k' <= 4)%nat -> X i <= u <= X i + vx h -> Y j <= v <= Y j + vy h -> Z k <= w <= Z k + vz h -> Rabs (D i' j' k' u v w) <= M i' j' k').
    { intros i' j' k' u v w H1 H2 H3 Hu Hv Hw. apply HM'; auto. intros [| |]; cbn [used Nat.leb vget vx vy vz]; auto. }
    specialize (E E2 (flag s AX) (flag s AY) (flag s AZ) (vx e) (vy e) (vz e) HeX HeY HeZ). unfold block, plate, sheet, line in E.
    destruct s as [[| |]|]; try discriminate; cbn [flag axis_eqb sc3 sc first_order vget ord] in *; exact E.
Qed.

Lemma interp_accuracy x : stores ov dim n 1 g l (fun c => jet D (pos c)) -> in_lattice dim n bmin bmax x ->
  let p := flat dim x in
  exists f, interpolate ov g x l false = Ok f /\
    Rabs (f_phi f - D 0%nat 0%nat 0%nat (vx p) (vy p) (vz p)) <= error_bound dim None (spacings n bmin bmax) M /\
    (forall a, used dim a = true -> Rabs (vget (f_psi f) a - first_order D a (vx p) (vy p) (vz p)) <= error_bound dim (Some a) (spacings n bmin bmax) M).
Proof.
  intros HS Hx p. destruct (interp_HD ov dim n bmin bmax g l Hb Hl Hbox Hdef x Hx) as (f & E & E1 & E2).
  assert (EQ : forall W, HD dim W (cell_data g l) (bcell dim n bmin bmax x) h = HD dim W (fun c => toQ (jet D (pos c))) (bcell dim n bmin bmax x) h).
  { intros W. apply HD_ext; [apply Hb|]. intros b' Hb'.
    destruct (stores_data ov dim n bmin bmax g l Hb (fun c => jet D (pos c)) b' HS (corner_padded ov dim n bmin bmax g Hb Hbox x b' Hx Hb')) as (A & B & C & D').
    cbn [toQ q_phi q_psi q_m0 q_m1 q_m2 q_m3]. rewrite B. auto. }
  exists f. split; [exact E|]. change (spacings n bmin bmax) with h. split.
  - rewrite E1, EQ. exact (HD_err None x Hx I).
  - intros a Hu. rewrite E2. unfold hpsi. rewrite Hu, EQ, os_get. exact (HD_err (Some a) x Hx Hu).
Qed.
End Cell.

(** ** Equal spacings *)
Lemma uniform_bound dim s h M : (1 <= dim <= 3)%nat -> 0 < h <= 1 -> 0 <= M ->
  error_bound dim s (V3 h h h) (fun _ _ _ => M) <= match s with Some _ => h ^ 3 / 14 * M | None => h ^ 4 / 100 * M end.
Proof.
  intros Hd Hh HM. set (t := h ^ 3 * M).
  assert (T0 : 0 <= t) by (apply Rmult_le_pos; [apply pow_le; lra|exact HM]).
  assert (T1 : 0 <= h * t <= t) by (split; [apply Rmult_le_pos; lra|rewrite <- (Rmult_1_l t) at 2; apply Rmult_le_compat_r; lra]).
  assert (T2 : 0 <= h * (h * t) <= h * t) by (split; [apply Rmult_le_pos; lra|rewrite <- (Rmult_1_l (h * t)) at 2; apply Rmult_le_compat_r; lra]).
  assert (T3 : 0 <= h * (h * (h * t)) <= h * (h * t)) by (split; [apply Rmult_le_pos; lra|rewrite <- (Rmult_1_l (h * (h * t))) at 2; apply Rmult_le_compat_r; lra]).
  assert (E4 : h ^ 4 * M = h * t) by (unfold t; ring).
  assert (E3 : forall z, 3 / h * z = 3 * (z / h)) by (intros; unfold Rdiv; ring).
  assert (O4 : h ^ 4 / 384 * M = / 384 * (h * t)) by (unfold t; field).
  assert (O3 : h ^ 3 / 24 * M = / 24 * t) by (unfold t; field).
  assert (Q1 : forall c, c * (h * t) / h = c * t) by (intros; field; lra).
  assert (Q2 : (h * t) / h = t) by (field; lra).
  replace (h ^ 3 / 14 * M) with (/ 14 * t) by (unfold t; field). replace (h ^ 4 / 100 * M) with (/ 100 * (h * t)) by (unfold t; field).
  assert (D : dim = 1%nat \/ dim = 2%nat \/ dim = 3%nat) by lia.
  destruct D as [->|[->| ->]], s as [[| |]|]; cbn [error_bound axis_eqb vx vy vz own amp ord]; rewrite ?O4, ?O3, ?E3;
    repeat match goal with |- context [3 * (?z / h)] => replace (z / h) with (z * / h) by reflexivity end;
    clearbody t; try lra;
    repeat match goal with |- context [?z * / h] =>
         first [ replace (z * / h) with (/ 384 * t) by (field; lra)
               | replace (z * / h) with (/ 384 * t + (/ 384 * t + h / 4 * (/ 384 * t))) by (field; lra) ] end; try lra;
    match goal with |- ?z <= _ => ring_simplify z end; try lra.
Qed.

(** ** sin x sin y sin z: a field with all derivatives bounded by 1 *)
Fixpoint dsin (i : nat) (x : R) : R := match i with 0%nat => sin x | 1%nat => cos x | S (S i) => - dsin i x end.
Definition sin3 (i j k : nat) (x y z : R) : R := dsin i x * dsin j y * dsin k z.
Lemma dsin_derive i x : derivable_pt_lim (dsin i) x (dsin (S i) x) /\ derivable_pt_lim (dsin (S i)) x (dsin (S (S i)) x).
Proof.
  induction i as [|i [IH1 IH2]].
  - split; [apply derivable_pt_lim_sin|]. apply derivable_pt_lim_cos.
  - split; [exact IH2|]. exact (derivable_pt_lim_opp (dsin i) x _ IH1).
Qed.
Lemma dsin_bound i x : Rabs (dsin i x) <= 1 /\ Rabs (dsin (S i) x) <= 1.
Proof.
  induction i as [|i [IH1 IH2]].
  - pose proof (SIN_bound x). pose proof (COS_bound x). split; apply Rabs_le; cbn; lra.
  - split; [exact IH2|]. cbn. rewrite Rabs_Ropp. exact IH1.
Qed.
Lemma sin3_smooth : smooth sin3.
Proof.
  intros i j k x y z. unfold sin3. repeat split.
  - pose proof (derivable_pt_lim_scal (dsin i) (dsin j y * dsin k z) x _ (proj1 (dsin_derive i x))) as H.
    apply derivable_pt_lim_ext with (f := mult_real_fct (dsin j y * dsin k z) (dsin i)); [intros; unfold mult_real_fct; ring|].
    replace (dsin (S i) x * dsin j y * dsin k z) with (dsin j y * dsin k z * dsin (S i) x) by ring. exact H.
  - pose proof (derivable_pt_lim_scal (dsin j) (dsin i x * dsin k z) y _ (proj1 (dsin_derive j y))) as H.
    apply derivable_pt_lim_ext with (f := mult_real_fct (dsin i x * dsin k z) (dsin j)); [intros; unfold mult_real_fct; ring|].
    replace (dsin i x * dsin (S j) y * dsin k z) with (dsin i x * dsin k z * dsin (S j) y) by ring. exact H.
  - pose proof (derivable_pt_lim_scal (dsin k) (dsin i x * dsin j y) z _ (proj1 (dsin_derive k z))) as H.
    exact H.
Qed.
Lemma sin3_bound i j k x y z : Rabs (sin3 i j k x y z) <= 1.
Proof.
  unfold sin3. rewrite !Rabs_mult. pose proof (proj1 (dsin_bound i x)). pose proof (proj1 (dsin_bound j y)). pose proof (proj1 (dsin_bound k z)).
  rewrite <- (Rmult_1_r 1). apply Rmult_le_compat; auto using Rabs_pos. 1: apply Rmult_le_pos; apply Rabs_pos.
  rewrite <- (Rmult_1_r 1). apply Rmult_le_compat; auto using Rabs_pos.
Qed.

Lemma order dim h M : (1 <= dim <= 3)%nat -> 0 < h <= 1 -> 0 <= M ->
  error_bound dim None (V3 h h h) (fun _ _ _ => M) <= M * h ^ 4 / 100 /\
  forall a, error_bound dim (Some a) (V3 h h h) (fun _ _ _ => M) <= M * h ^ 3 / 14.
Proof.
  intros H1 H2 H3. split; [|intros a].
  - replace (M * h ^ 4 / 100) with (h ^ 4 / 100 * M) by field. exact (uniform_bound dim None h M H1 H2 H3).
  - replace (M * h ^ 3 / 14) with (h ^ 3 / 14 * M) by field. exact (uniform_bound dim (Some a) h M H1 H2 H3).
Qed.
