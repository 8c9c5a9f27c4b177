(** Errors in the data, rounding and discretisation together. *)
From Coq Require Import ZArith List Reals Lra Lia Bool.
From Flocq Require Import Core BinarySingleNaN.
From Verif Require Import Base Num NumB64 ModelVec ModelGrid ModelArray ModelInterp ModelTemporal SpecGrid SpecInterp SpecGradient SpecTemporal SpecAccuracy SpecB64 SpecRound SpecSensitive
  ProofsBase ProofsGrid ProofsArray ProofsGridProps ProofsInterp ProofsInterpProps ProofsInterpApi ProofsTemporal ProofsAccuracy ProofsAccuracyStep ProofsRunStep
  ProofsRoundInterp ProofsRoundStep ProofsSensitive.
Open Scope R_scope.

Lemma over_axes_diff dim (F G : axis -> R) (B : axis -> R) u v : u = over_axes dim F -> v = over_axes dim G ->
  (forall r, used dim r = true -> Rabs (F r - G r) <= B r) -> Rabs (u - v) <= over_axes dim B.
Proof.
  intros -> -> H. unfold over_axes.
  assert (T : forall r, Rabs ((if used dim r then F r else 0) - (if used dim r then G r else 0)) <= (if used dim r then B r else 0)).
  { intros r. specialize (H r). destruct (used dim r); [auto|rewrite Rminus_0_r, Rabs_R0; lra]. }
  pose proof (T AX). pose proof (T AY). pose proof (T AZ).
  match goal with |- Rabs (?a + ?b + ?c - (?a' + ?b' + ?c')) <= _ => replace (a + b + c - (a' + b' + c')) with ((a - a') + (b - b') + (c - c')) by ring end.
  eapply Rle_trans; [apply Rabs_triang|]. eapply Rle_trans; [apply Rplus_le_compat_r, Rabs_triang|]. lra.
Qed.
Lemma over_axes_plus dim F G : over_axes dim (fun r => F r + G r) = over_axes dim F + over_axes dim G.
Proof. unfold over_axes. destruct (used dim AX), (used dim AY), (used dim AZ); ring. Qed.

Section Step.
Variables (ov : ovmode) (dim : nat) (n : vec3 Z) (bmin bmax : vec3 R) (g : grid R) (dt : R) (lv : ls_velocity R) (l l' : levelset R) (S S' : cell -> cell_values) (A : R).
Hypothesis Hb : built ov dim n 1 bmin bmax g.
Hypothesis Hl : levelset_on g l.
Hypothesis Hl' : levelset_on g l'.
Hypothesis Hv : velocity_on g lv.
Hypothesis Hbox : proper_box dim bmin bmax.
Hypothesis Hdef : interp_defined ov dim.
Hypothesis HS : stores ov dim n 1 g l S.
Hypothesis HS' : stores ov dim n 1 g l' S'.
Notation h := (spacings n bmin bmax).
Hypothesis HA : sized dim n 1 h A (fun c => cv_minus (S c) (S' c)).
Hypothesis Hx : forall i j k p v, interior_cell n (i, j, k) -> node ov g i j k = Ok p -> aget ov g (lv_vel lv) i j k = Ok v -> in_lattice dim n bmin bmax (foot dt v p).

Lemma unused_psi lx x f r : levelset_on g lx -> in_lattice dim n bmin bmax x -> interpolate ov g x lx false = Ok f -> used dim r = false -> vget (f_psi f) r = 0.
Proof.
  intros Hlx Hi Ef Hu. pose proof (interp_HD ov dim n bmin bmax g lx Hb Hlx Hbox Hdef _ Hi) as (f' & Ef' & _ & Q). rewrite Ef in Ef'. injection Ef' as <-.
  rewrite Q. unfold ProofsHermiteCell.hpsi. rewrite Hu. reflexivity.
Qed.

Lemma step_sensitive : exists l1 l1', sl_compute ov g dt lv l = Ok l1 /\ sl_compute ov g dt lv l' = Ok l1' /\
  forall i j k, interior_cell n (i, j, k) -> exists m p p' s s', aget ov g (lv_grad lv) i j k = Ok m /\
    aget ov g (ls_phi l1) i j k = Ok p /\ aget ov g (ls_phi l1') i j k = Ok p' /\ Rabs (p - p') <= value_gain dim * A /\
    aget ov g (ls_psi l1) i j k = Ok s /\ aget ov g (ls_psi l1') i j k = Ok s' /\
    forall a, Rabs (vget s a - vget s' a) <=
      over_axes dim (fun r => Rabs ((if axis_eqb r a then 1 else 0) - dt * mget m r a) * (slope_gain dim * (A / vget h r))).
Proof.
  assert (K := fun x Hi => interp_sensitive ov dim n bmin bmax g l l' S S' A Hb Hl Hl' Hbox Hdef HS HS' HA x Hi).
  destruct (sl_general ov dim n 1 bmin bmax g dt lv l Hb Hl Hv) as (l1 & E & _ & H).
  { intros i j k p v Hi Np Ev. destruct (K _ (Hx i j k p v Hi Np Ev)) as (f & f' & F & _). eauto. }
  destruct (sl_general ov dim n 1 bmin bmax g dt lv l' Hb Hl' Hv) as (l1' & E' & _ & H').
  { intros i j k p v Hi Np Ev. destruct (K _ (Hx i j k p v Hi Np Ev)) as (f & f' & _ & F & _). eauto. }
  exists l1, l1'. split; [exact E|]. split; [exact E'|]. intros i j k Hi.
  destruct (H i j k Hi) as (p & v & m & f & y & Np & Ev & Em & Ef & Ephi & Epsi & EY).
  destruct (H' i j k Hi) as (p' & v' & m' & f' & y' & Np' & Ev' & Em' & Ef' & Ephi' & Epsi' & EY').
  assert (p' = p) by congruence. assert (v' = v) by congruence. assert (m' = m) by congruence. subst p' v' m'.
  pose proof (Hx i j k p v Hi Np Ev) as Hin. destruct (K _ Hin) as (f0 & f0' & F & F' & B1 & B2).
  assert (f0 = f) by congruence. assert (f0' = f') by congruence. subst f0 f0'.
  exists m, (f_phi f), (f_phi f'), y, y'. repeat (split; [assumption|]). intros a.
  set (w := fun r => (if axis_eqb r a then 1 else 0) - dt * mget m r a).
  assert (U : forall (ff : fields R) lx, levelset_on g lx -> interpolate ov g (foot dt v p) lx false = Ok ff ->
     w AX * vx (f_psi ff) + w AY * vy (f_psi ff) + w AZ * vz (f_psi ff) = over_axes dim (fun r => w r * vget (f_psi ff) r)).
  { intros ff lx Hlx Eff. unfold over_axes. pose proof (fun r => unused_psi lx _ ff r Hlx Hin Eff) as Z.
    pose proof (Z AX). pose proof (Z AY). pose proof (Z AZ). cbn [vget] in *.
    destruct (used dim AX), (used dim AY), (used dim AZ);
      repeat match goal with H : false = false -> ?e = 0 |- _ => rewrite (H eq_refl); clear H end; ring. }
  eapply over_axes_diff; [rewrite EY; apply (U f l Hl Ef)|rewrite EY'; apply (U f' l' Hl' Ef')|].
  intros r Hu. cbv beta. rewrite <- Rmult_minus_distr_l, Rabs_mult. apply Rmult_le_compat_l; [apply Rabs_pos|]. apply B2. exact Hu.
Qed.
End Step.

(** ** in double *)
Section Total.
Variables (ov : ovmode) (dim : nat) (n : vec3 Z) (bmin bmax : vec3 b64) (g : grid b64) (l : levelset b64) (S : cell -> cell_values) (M rho : R)
  (D : nat -> nat -> nat -> R -> R -> R -> R) (MD : nat -> nat -> nat -> R) (eps : R).
Hypothesis Hb : built ov dim n 1 bmin bmax g.
Hypothesis Hl : levelset_on g l.
Hypothesis HS : stores64 ov dim n 1 g l S.
Hypothesis Hdef : interp_defined ov dim.
Hypothesis Hf : fine_box dim rho n bmin bmax.
Hypothesis HM : moderate M.
Notation lo := (reals bmin).
Notation hi := (reals bmax).
Notation h := (spacings n (reals bmin) (reals bmax)).
Notation pos := (centre_pos dim n (reals bmin) (reals bmax)).
Hypothesis Hz : sized dim n 1 h M S.
Hypothesis SD : smooth D.
Hypothesis HD : forall i j k p, (i <= 4)%nat -> (j <= 4)%nat -> (k <= 4)%nat -> centre_box dim n lo hi p -> Rabs (D i j k (vx p) (vy p) (vz p)) <= MD i j k.
Hypothesis He : sized dim n 1 h eps (fun c => cv_minus (S c) (jet D (pos c))).

Lemma exact_pair : exists gR lR lJ, built ov dim n 1 lo hi gR /\ levelset_on gR lR /\ stores ov dim n 1 gR lR S /\
  levelset_on gR lJ /\ stores ov dim n 1 gR lJ (fun c => jet D (pos c)).
Proof.
  destruct Hb as (Hg & Ha & _). destruct (built_exists ov dim n 1 lo hi Hg Ha) as (gR & HbR).
  destruct (stores_exists ov dim n 1 _ _ gR S HbR) as (lR & HlR & HSR).
  destruct (stores_exists ov dim n 1 _ _ gR (fun c => jet D (pos c)) HbR) as (lJ & HlJ & HSJ). exists gR, lR, lJ. auto.
Qed.
Lemma prop_box : proper_box dim lo hi. Proof. exact (proper_reals dim n bmin bmax rho Hf). Qed.
Lemma near_lattice x : near_box dim n bmin bmax x -> in_lattice dim n lo hi (reals x).
Proof.
  intros H a Hu. specialize (H a Hu). pose proof (proj2 Hf a Hu) as (_ & _ & _ & (Q & _) & _).
  assert (G : 0 < spacing64 (vget bmin a) (vget bmax a) (vget n a)) by (eapply Rlt_le_trans; [apply (bpow_gt_0 radix2 (-200))|exact Q]).
  cbv zeta in *. destruct H as (_ & H). unfold spacing64 in *.
  destruct a; cbn [vget reals vx vy vz] in *; lra.
Qed.

Lemma interp_total x : near_box dim n bmin bmax x -> let p := flat dim (reals x) in
  exists f, interpolate ov g x l false = Ok f /\ is_finite (f_phi f) = true /\
    Rabs (real (f_phi f) - D 0%nat 0%nat 0%nat (vx p) (vy p) (vz p)) <= error_bound dim None h MD + value_gain dim * eps + round_bound dim rho * M /\
    forall a, used dim a = true -> is_finite (vget (f_psi f) a) = true /\
      Rabs (real (vget (f_psi f) a) - first_order D a (vx p) (vy p) (vz p)) <=
        error_bound dim (Some a) h MD + slope_gain dim * (eps / vget h a) + round_bound dim rho * (M / vget h a).
Proof.
  intros Hx p. destruct exact_pair as (gR & lR & lJ & HbR & HlR & HSR & HlJ & HSJ).
  assert (Hn : near_point dim bmin bmax x (reals x)).
  { intros a Hu. replace (vget (reals x) a) with (real (vget x a)) by (destruct a; reflexivity). rewrite Rminus_diag_eq, Rabs_R0 by reflexivity.
    apply Rmult_le_pos; [apply bpow_ge_0|]. unfold reach. eapply Rle_trans; [apply Rabs_pos|apply Rmax_l]. }
  destruct (interp_bound ov dim n bmin bmax g l gR lR S M rho Hb HbR Hl HlR Hdef Hf HS HSR HM Hz x (reals x) Hx Hn) as (f & fR & E & ER & F1 & R1 & R2).
  pose proof (near_lattice x Hx) as Hi.
  destruct (interp_sensitive ov dim n lo hi gR lR lJ S _ eps HbR HlR HlJ prop_box Hdef HSR HSJ He (reals x) Hi) as (fR' & fJ & ER' & EJ & S1 & S2).
  assert (fR' = fR) by congruence. subst fR'.
  destruct (interp_accuracy ov dim n lo hi gR lJ HbR HlJ prop_box Hdef D MD SD HD (reals x) HSJ Hi) as (fJ' & EJ' & A1 & A2).
  assert (fJ' = fJ) by congruence. subst fJ'.
  assert (T : forall a b c d u v w, Rabs (a - b) <= w -> Rabs (b - c) <= v -> Rabs (c - d) <= u -> Rabs (a - d) <= u + v + w).
  { intros a b c d u v w H1 H2 H3. replace (a - d) with ((a - b) + ((b - c) + (c - d))) by ring.
    eapply Rle_trans; [apply Rabs_triang|]. pose proof (Rabs_triang (b - c) (c - d)). lra. }
  exists f. split; [exact E|]. split; [exact F1|]. split; [eapply T; eassumption|].
  intros a Hu. destruct (R2 a Hu) as (F2 & R3). split; [exact F2|]. eapply T; [exact R3|exact (S2 a Hu)|exact (A2 a Hu)].
Qed.

Variables (lv : ls_velocity b64) (dt : b64) (hm K : R).
Hypothesis Hv : velocity_on g lv.
Hypothesis HV : slow_flow ov dim n bmin bmax dt g lv.
Hypothesis Hhm : moderate hm.
Hypothesis Hmin : forall a, used dim a = true -> hm <= vget h a.
Hypothesis Hdt : 0 <= real dt.
Variables X X1 X2 : cell -> axis -> R -> R.
Hypothesis Hpath : forall i j k v, interior_cell n (i, j, k) -> aget ov g (lv_vel lv) i j k = Ok v ->
  arrives dim (real dt) (X (i, j, k)) (X1 (i, j, k)) (X2 (i, j, k)) (pos (i, j, k)) (reals v) K /\ centre_box dim n lo hi (start dim (X (i, j, k))).

Lemma real_velocity gR : built ov dim n 1 lo hi gR -> exists lvR, velocity_on gR lvR /\ same_velocity ov dim n bmin bmax dt g lv gR lvR /\
  forall i j k v, interior_cell n (i, j, k) -> aget ov g (lv_vel lv) i j k = Ok v -> aget ov gR (lv_vel lvR) i j k = Ok (reals v).
Proof.
  intros HbR. pose proof (built_ok _ _ _ _ _ _ _ HbR) as F. pose proof (bf_ok _ _ _ _ _ _ _ F) as Hg.
  set (fv := fun c : cell => match c with (i, j, k) => match aget ov g (lv_vel lv) i j k with Ok v => reals v | _ => V3 0 0 0 end end).
  set (fm := fun c : cell => match c with (i, j, k) => match aget ov g (lv_grad lv) i j k with Ok m => mreals m | _ => mreals mzero end end).
  destruct (array_of ov gR fv Hg) as (a1 & S1 & P1 & _). destruct (array_of ov gR fm Hg) as (a2 & S2 & P2 & _).
  pose proof (fun A a => proj2 (array_on_shaped (A := A) _ _ _ _ _ _ _ a HbR)) as Sh.
  assert (Q : forall i j k, interior_cell n (i, j, k) -> aget ov gR a1 i j k = Ok (fv (i, j, k)) /\ aget ov gR a2 i j k = Ok (fm (i, j, k))).
  { intros i j k Hi. assert (Hp : padded_cell dim n 1 (i, j, k)) by (eapply interior_padded; [exact (proj1 Hb)|exact Hi]).
    assert (Hc : gcell gR (i, j, k)) by (apply (built_gcell _ _ _ _ _ _ _ _ HbR); exact Hp). rewrite !(aget_peek_c ov) by auto. rewrite P1, P2 by auto. auto. }
  exists (mkLV a1 a2). cbn [lv_vel lv_grad]. split; [split; apply Sh; assumption|]. split.
  - intros i j k Hi. destruct (HV i j k Hi) as (v & m & E1 & E2 & E3 & E4). destruct (Q i j k Hi) as (Q1 & Q2). unfold fv in Q1. unfold fm in Q2. rewrite E1 in Q1. rewrite E2 in Q2. cbn [lv_vel lv_grad]. split.
    + exists v, (reals v). repeat (split; [assumption|]). intros a _. destruct a; reflexivity.
    + exists m. auto.
  - intros i j k v Hi Ev. destruct (Q i j k Hi) as (Q1 & _). unfold fv in Q1. rewrite Ev in Q1. exact Q1.
Qed.

(** three quarters of a cell from an interior node is inside *)
Lemma slow_foot i j k v : interior_cell n (i, j, k) -> slow dim n bmin bmax dt v -> in_lattice dim n lo hi (foot (real dt) (reals v) (pos (i, j, k))).
Proof.
  intros Hi Hs a Hu. cbv zeta. pose proof (proj2 Hf a Hu) as (_ & _ & _ & (Q & _) & _).
  assert (G : 0 < spacing64 (vget bmin a) (vget bmax a) (vget n a)) by (eapply Rlt_le_trans; [apply (bpow_gt_0 radix2 (-200))|exact Q]).
  destruct (Hs a Hu) as (_ & _ & B). apply Rabs_le_inv in B. rewrite Rmult_comm in B. specialize (Hi a).
  replace (vget (foot (real dt) (reals v) (pos (i, j, k))) a) with (vget (pos (i, j, k)) a - real dt * real (vget v a)) by (destruct a; reflexivity).
  rewrite centre_coord, Hu. unfold centre.
  replace (vget lo a) with (real (vget bmin a)) by (destruct a; reflexivity). replace (vget hi a) with (real (vget bmax a)) by (destruct a; reflexivity).
  assert (EN : real (vget bmin a) + IZR (vget n a) * spacing64 (vget bmin a) (vget bmax a) (vget n a) = real (vget bmax a)).
  { unfold spacing64, spacing. field. apply IZR_neq. lia. }
  unfold spacing64 in *. set (sp := spacing _ _ _) in *. clearbody sp.
  assert (L1 : 0 <= IZR (ccoord (i, j, k) a)) by (apply IZR_le; lia).
  assert (L2 : IZR (ccoord (i, j, k) a) + 1 <= IZR (vget n a)) by (rewrite <- plus_IZR; apply IZR_le; lia).
  set (c := IZR (ccoord _ _)) in *. clearbody c.
  apply Rmult_le_compat_r with (r := sp) in L1; [|lra]. apply Rmult_le_compat_r with (r := sp) in L2; [|lra]. lra.
Qed.

Lemma step_total : exists l', sl_compute ov g dt lv l = Ok l' /\
  forall i j k, interior_cell n (i, j, k) -> exists v m phi psi, aget ov g (lv_vel lv) i j k = Ok v /\ aget ov g (lv_grad lv) i j k = Ok m /\
    aget ov g (ls_phi l') i j k = Ok phi /\ aget ov g (ls_psi l') i j k = Ok psi /\ is_finite phi = true /\
    (let q := start dim (X (i, j, k)) in
     Rabs (real phi - D 0%nat 0%nat 0%nat (vx q) (vy q) (vz q)) <=
       error_bound dim None h MD + K / 2 * real dt ^ 2 * over_axes dim (slope_bound MD) + value_gain dim * eps + round_bound dim rho * M) /\
    (let q := flat dim (foot (real dt) (reals v) (pos (i, j, k))) in let w r a := (if axis_eqb r a then 1 else 0) - real dt * real (mget m r a) in
     forall a, used dim a = true -> is_finite (vget psi a) = true /\
       Rabs (real (vget psi a) - over_axes dim (fun r => w r a * first_order D r (vx q) (vy q) (vz q))) <=
       over_axes dim (fun r => Rabs (w r a) * (error_bound dim (Some r) h MD + slope_gain dim * (eps / vget h r))) + 8 * round_bound dim rho * (M / hm)).
Proof.
  destruct exact_pair as (gR & lR & lJ & HbR & HlR & HSR & HlJ & HSJ). destruct (real_velocity gR HbR) as (lvR & HvR & SV & VV).
  destruct (step_bound ov dim n bmin bmax g l gR lR S M rho Hb HbR Hl HlR Hdef Hf HS HSR HM Hz lv lvR dt hm Hv HvR SV Hhm Hmin) as (l' & lR' & E & ER & B).
  assert (PAD : forall c, interior_cell n c -> padded_cell dim n 1 c) by (intros c Hc; eapply interior_padded; [exact (proj1 Hb)|exact Hc]).
  assert (ND : forall i j k p, interior_cell n (i, j, k) -> node ov gR i j k = Ok p -> p = pos (i, j, k)).
  { intros i j k p Hi Np. exact (node_centre ov dim n lo hi gR HbR i j k p (PAD _ Hi) Np). }
  assert (FT : forall i j k p v, interior_cell n (i, j, k) -> node ov gR i j k = Ok p -> aget ov gR (lv_vel lvR) i j k = Ok v -> in_lattice dim n lo hi (foot (real dt) v p)).
  { intros i j k p v Hi Np Ev. rewrite (ND i j k p Hi Np). destruct (HV i j k Hi) as (v0 & m & E1 & _ & E3 & _). pose proof (VV i j k v0 Hi E1) as E4.
    assert (v = reals v0) by congruence. subst v. apply slow_foot; assumption. }
  destruct (step_sensitive ov dim n lo hi gR (real dt) lvR lR lJ S _ eps HbR HlR HlJ HvR prop_box Hdef HSR HSJ He FT) as (lR'' & lJ' & ER'' & EJ & SS).
  assert (lR'' = lR') by congruence. subst lR''.
  destruct (step_error ov dim n lo hi gR (real dt) K lvR lJ HbR HlJ HvR prop_box Hdef Hdt D MD SD HD HSJ X X1 X2) as (lJ'' & EJ'' & _ & SE).
  { intros i j k p v Hi Np Ev. split; [exact (FT i j k p v Hi Np Ev)|]. rewrite (ND i j k p Hi Np). destruct (HV i j k Hi) as (v0 & m & E1 & _). pose proof (VV i j k v0 Hi E1) as E4.
    assert (v = reals v0) by congruence. subst v. apply Hpath; assumption. }
  assert (lJ'' = lJ') by congruence. subst lJ''.
  exists l'. split; [exact E|]. intros i j k Hi.
  destruct (B i j k Hi) as ((p & pR & P1 & P2 & P3 & P4) & (s & sR & Q1 & Q2 & Q3)).
  destruct (SS i j k Hi) as (m1 & p1 & p1' & s1 & s1' & M1 & T1 & T2 & T3 & T4 & T5 & T6).
  destruct (SE i j k Hi) as (p2 & v2 & m2 & phi2 & psi2 & U1 & U2 & U3 & U4 & U5 & U6 & U7).
  destruct (HV i j k Hi) as (v & m & V1 & V2 & V3 & V4). destruct (SV i j k Hi) as (_ & (m' & W1 & W2 & _)).
  assert (m' = m) by congruence. subst m'. assert (m1 = mreals m) by congruence. assert (m2 = mreals m) by congruence. subst m1 m2.
  pose proof (VV i j k v Hi V1) as V5. assert (v2 = reals v) by congruence. subst v2. pose proof (ND i j k p2 Hi U1). subst p2.
  assert (p1 = pR) by congruence. assert (p1' = phi2) by congruence. assert (s1 = sR) by congruence. assert (s1' = psi2) by congruence. subst p1 p1' s1 s1'.
  exists v, m, p, s. repeat (split; [assumption|]). cbv zeta in *. split.
  - match type of U6 with Rabs (_ - ?z) <= _ => set (zz := z) in * end. clearbody zz.
    replace (real p - zz) with ((real p - pR) + ((pR - phi2) + (phi2 - zz))) by ring.
    eapply Rle_trans; [apply Rabs_triang|]. pose proof (Rabs_triang (pR - phi2) (phi2 - zz)). lra.
  - intros a Hu. destruct (Q3 a Hu) as (F & Q4). split; [exact F|]. specialize (T6 a). specialize (U7 a).
    assert (MR : forall r c, mget (mreals m) r c = real (mget m r c)) by (intros [| |] [| |]; reflexivity).
    assert (EB : over_axes dim (fun r => Rabs ((if axis_eqb r a then 1 else 0) - real dt * real (mget m r a)) * (error_bound dim (Some r) h MD + slope_gain dim * (eps / vget h r))) =
      over_axes dim (fun r => Rabs ((if axis_eqb r a then 1 else 0) - real dt * mget (mreals m) r a) * error_bound dim (Some r) h MD) +
      over_axes dim (fun r => Rabs ((if axis_eqb r a then 1 else 0) - real dt * mget (mreals m) r a) * (slope_gain dim * (eps / vget h r)))).
    { rewrite <- over_axes_plus. unfold over_axes. rewrite !MR. rewrite !Rmult_plus_distr_l. reflexivity. }
    rewrite EB. clear EB.
    assert (EW : over_axes dim (fun r => ((if axis_eqb r a then 1 else 0) - real dt * real (mget m r a)) * first_order D r (vx (flat dim (foot (real dt) (reals v) (pos (i, j, k))))) (vy (flat dim (foot (real dt) (reals v) (pos (i, j, k))))) (vz (flat dim (foot (real dt) (reals v) (pos (i, j, k)))))) =
      over_axes dim (fun r => ((if axis_eqb r a then 1 else 0) - real dt * mget (mreals m) r a) * first_order D r (vx (flat dim (foot (real dt) (reals v) (pos (i, j, k))))) (vy (flat dim (foot (real dt) (reals v) (pos (i, j, k))))) (vz (flat dim (foot (real dt) (reals v) (pos (i, j, k))))))).
    { unfold over_axes. rewrite !MR. reflexivity. }
    rewrite EW. clear EW. match type of U7 with Rabs (_ - ?z) <= ?b => set (zz := z) in *; set (bb := b) in * end. match type of T6 with _ <= ?b => set (cc := b) in * end. clearbody zz bb cc.
    replace (real (vget s a) - zz) with ((real (vget s a) - vget sR a) + ((vget sR a - vget psi2 a) + (vget psi2 a - zz))) by ring.
    eapply Rle_trans; [apply Rabs_triang|]. pose proof (Rabs_triang (vget sR a - vget psi2 a) (vget psi2 a - zz)). lra.
Qed.
End Total.
