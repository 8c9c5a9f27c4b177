(** The error of one semi-Lagrangian step. *)
From Coq Require Import ZArith List Reals Lra Lia.
From Verif Require Import Base Num ModelVec ModelGrid ModelArray ModelInterp ModelTemporal SpecGrid SpecInterp SpecGradient SpecTemporal SpecAccuracy
  ProofsBase ProofsGrid ProofsArray ProofsGridProps ProofsTaylor ProofsInterp ProofsInterpProps ProofsInterpApi ProofsTemporal ProofsTemporalCases ProofsAccuracy.
Open Scope R_scope.

Lemma taylor1_back dt K f f1 f2 : 0 <= dt ->
  (forall t, 0 <= t <= dt -> derivable_pt_lim f t (f1 t) /\ derivable_pt_lim f1 t (f2 t) /\ Rabs (f2 t) <= K) ->
  Rabs (f 0 - (f dt - dt * f1 dt)) <= K / 2 * dt ^ 2.
Proof.
  intros Hdt H.
  assert (C : forall q q' t, derivable_pt_lim q (dt - t) q' -> derivable_pt_lim (fun s => q (dt - s)) t (- q')).
  { intros q q' t D. eapply d_eq; [apply (derivable_pt_lim_comp (fun s => dt - s) q)|].
    - apply (derivable_pt_lim_minus (fun _ => dt) id); [apply d_const|apply derivable_pt_lim_id].
    - exact D.
    - ring. }
  set (F := fun s => f (dt - s) - (f dt - s * f1 dt)). set (F1 := fun s => f1 dt - f1 (dt - s)).
  assert (E1 : forall s, 0 <= s <= dt -> Rabs (F1 s) <= K * s).
  { apply (growth F1 (fun s => f2 (dt - s)) (fun s => K * s) (fun _ => K) dt).
    - intros s Hs. eapply d_eq; [apply (derivable_pt_lim_minus (fun _ => f1 dt) (fun s => f1 (dt - s))); [apply d_const|apply C, H; lra]|ring].
    - intros s Hs. apply d_lin.
    - intros s Hs. apply H. lra.
    - unfold F1. rewrite Rminus_0_r. ring.
    - ring. }
  assert (E : forall s, 0 <= s <= dt -> Rabs (F s) <= K / 2 * s ^ 2).
  { apply (growth F F1 (fun s => K / 2 * s ^ 2) (fun s => K * s) dt).
    - intros s Hs. unfold F, F1. eapply d_eq; [apply (derivable_pt_lim_minus (fun s => f (dt - s)) (fun s => f dt - s * f1 dt)); [apply C, H; lra|]|].
      + apply (derivable_pt_lim_minus (fun _ => f dt) (fun s => s * f1 dt)); [apply d_const|].
        apply derivable_pt_lim_ext with (f := fun s => f1 dt * s); [intros; ring|apply d_lin].
      + ring.
    - intros s Hs. eapply d_eq; [apply d_pow|]. cbn. field.
    - exact E1.
    - unfold F. rewrite Rminus_0_r. ring.
    - ring. }
  specialize (E dt ltac:(lra)). unfold F in E. replace (dt - dt) with 0 in E by ring. exact E.
Qed.

(** a function with a bounded derivative on a segment *)
Lemma lipschitz f f' L u v : (forall t, Rmin u v <= t <= Rmax u v -> derivable_pt_lim f t (f' t) /\ Rabs (f' t) <= L) ->
  Rabs (f u - f v) <= L * Rabs (u - v).
Proof.
  intros H. destruct (Rtotal_order u v) as [C|[C|C]].
  - destruct (MVT_cor2 f f' u v C) as (c & E & Hc); [intros c Hc; apply H; rewrite Rmin_left, Rmax_right by lra; lra|].
    rewrite (Rabs_minus_sym (f u)), E, Rabs_mult, (Rabs_minus_sym u). apply Rmult_le_compat_r; [apply Rabs_pos|].
    apply H. rewrite Rmin_left, Rmax_right by lra. lra.
  - subst. rewrite !Rminus_diag_eq, !Rabs_R0 by reflexivity. lra.
  - destruct (MVT_cor2 f f' v u C) as (c & E & Hc); [intros c Hc; apply H; rewrite Rmin_right, Rmax_left by lra; lra|].
    rewrite E, Rabs_mult. apply Rmult_le_compat_r; [apply Rabs_pos|]. apply H. rewrite Rmin_right, Rmax_left by lra. lra.
Qed.

Section Move.
Variables (dim : nat) (n : vec3 Z) (bmin bmax : vec3 R) (D : nat -> nat -> nat -> R -> R -> R -> R) (M : nat -> nat -> nat -> R).
Hypothesis Hd : (1 <= dim <= 3)%nat.
Hypothesis SD : smooth D.
Hypothesis HM : forall i j k p, (i <= 4)%nat -> (j <= 4)%nat -> (k <= 4)%nat -> centre_box dim n bmin bmax p ->
  Rabs (D i j k (vx p) (vy p) (vz p)) <= M i j k.
Lemma box_between (q r s : vec3 R) : centre_box dim n bmin bmax q -> centre_box dim n bmin bmax r ->
  (forall a, Rmin (vget q a) (vget r a) <= vget s a <= Rmax (vget q a) (vget r a)) -> centre_box dim n bmin bmax s.
Proof.
  intros Hq Hr H a. specialize (Hq a). specialize (Hr a). specialize (H a). cbv zeta in *. destruct (used dim a).
  - unfold Rmin, Rmax in H. repeat destruct Rle_dec; lra.
  - rewrite Hq, Hr in H. rewrite Rmin_left, Rmax_left in H by lra. lra.
Qed.
Lemma box_move (q r : vec3 R) d : centre_box dim n bmin bmax q -> centre_box dim n bmin bmax r ->
  (forall a, used dim a = true -> Rabs (vget q a - vget r a) <= d) ->
  Rabs (D 0%nat 0%nat 0%nat (vx q) (vy q) (vz q) - D 0%nat 0%nat 0%nat (vx r) (vy r) (vz r)) <= d * over_axes dim (slope_bound M).
Proof.
  intros Hq Hr Hdist. destruct q as [qx qy qz], r as [rx ry rz]. cbn [vx vy vz].
  assert (B : forall a, used dim a = false -> vget (V3 qx qy qz) a = vget (V3 rx ry rz) a).
  { intros a Hu. specialize (Hq a). specialize (Hr a). rewrite Hu in Hq, Hr. congruence. }
  assert (MM : forall u v, Rmin u v <= u <= Rmax u v /\ Rmin u v <= v <= Rmax u v).
  { intros u v. unfold Rmin, Rmax. destruct Rle_dec; lra. }
  pose proof (MM qx rx). pose proof (MM qy ry). pose proof (MM qz rz).
  assert (L1 : Rabs (D 0%nat 0%nat 0%nat qx qy qz - D 0%nat 0%nat 0%nat rx qy qz) <= M 1%nat 0%nat 0%nat * Rabs (qx - rx)).
  { apply (lipschitz (fun t => D 0%nat 0%nat 0%nat t qy qz) (fun t => D 1%nat 0%nat 0%nat t qy qz)). intros t Ht. split; [apply SD|].
    apply (HM 1 0 0 (V3 t qy qz)); try lia. eapply box_between; [exact Hq|exact Hr|]. intros [| |]; cbn [vget vx vy vz]; lra. }
  assert (L2 : Rabs (D 0%nat 0%nat 0%nat rx qy qz - D 0%nat 0%nat 0%nat rx ry qz) <= M 0%nat 1%nat 0%nat * Rabs (qy - ry)).
  { apply (lipschitz (fun t => D 0%nat 0%nat 0%nat rx t qz) (fun t => D 0%nat 1%nat 0%nat rx t qz)). intros t Ht. split; [apply SD|].
    apply (HM 0 1 0 (V3 rx t qz)); try lia. eapply box_between; [exact Hq|exact Hr|]. intros [| |]; cbn [vget vx vy vz]; lra. }
  assert (L3 : Rabs (D 0%nat 0%nat 0%nat rx ry qz - D 0%nat 0%nat 0%nat rx ry rz) <= M 0%nat 0%nat 1%nat * Rabs (qz - rz)).
  { apply (lipschitz (fun t => D 0%nat 0%nat 0%nat rx ry t) (fun t => D 0%nat 0%nat 1%nat rx ry t)). intros t Ht. split; [apply SD|].
    apply (HM 0 0 1 (V3 rx ry t)); try lia. eapply box_between; [exact Hq|exact Hr|]. intros [| |]; cbn [vget vx vy vz]; lra. }
  assert (P : forall i j k, (i <= 4)%nat -> (j <= 4)%nat -> (k <= 4)%nat -> 0 <= M i j k).
  { intros i j k Hi Hj Hk. eapply Rle_trans; [apply Rabs_pos|exact (HM i j k _ Hi Hj Hk Hq)]. }
  assert (T : forall a u v, u = vget (V3 qx qy qz) a -> v = vget (V3 rx ry rz) a -> slope_bound M a * Rabs (u - v) <= d * (if used dim a then slope_bound M a else 0)).
  { intros a u v -> ->. destruct (used dim a) eqn:Hu.
    - rewrite (Rmult_comm d). apply Rmult_le_compat_l; [destruct a; apply P; lia|apply Hdist; exact Hu].
    - rewrite (B a Hu), Rminus_diag_eq, Rabs_R0 by reflexivity. lra. }
  pose proof (T AX qx rx eq_refl eq_refl) as T1. pose proof (T AY qy ry eq_refl eq_refl) as T2. pose proof (T AZ qz rz eq_refl eq_refl) as T3.
  cbn [slope_bound] in T1, T2, T3. unfold over_axes. cbn [slope_bound].
  replace (D 0%nat 0%nat 0%nat qx qy qz - D 0%nat 0%nat 0%nat rx ry rz) with
    ((D 0%nat 0%nat 0%nat qx qy qz - D 0%nat 0%nat 0%nat rx qy qz) + (D 0%nat 0%nat 0%nat rx qy qz - D 0%nat 0%nat 0%nat rx ry qz) +
     (D 0%nat 0%nat 0%nat rx ry qz - D 0%nat 0%nat 0%nat rx ry rz)) by ring.
  eapply Rle_trans; [apply Rabs_triang|]. eapply Rle_trans; [apply Rplus_le_compat_r, Rabs_triang|]. lra.
Qed.
End Move.

Section Step.
Variables (ov : ovmode) (dim : nat) (n : vec3 Z) (bmin bmax : vec3 R) (g : grid R) (dt K : R) (lv : ls_velocity R) (l : levelset R).
Hypothesis Hb : built ov dim n 1 bmin bmax g.
Hypothesis Hl : levelset_on g l.
Hypothesis Hv : velocity_on g lv.
Hypothesis Hbox : proper_box dim bmin bmax.
Hypothesis Hdef : interp_defined ov dim.
Hypothesis Hdt : 0 <= dt.
Variables (D : nat -> nat -> nat -> R -> R -> R -> R) (M : nat -> nat -> nat -> R).
Hypothesis SD : smooth D.
Hypothesis HM : forall i j k p, (i <= 4)%nat -> (j <= 4)%nat -> (k <= 4)%nat -> centre_box dim n bmin bmax p ->
  Rabs (D i j k (vx p) (vy p) (vz p)) <= M i j k.
Hypothesis HS : stores ov dim n 1 g l (fun c => jet D (centre_pos dim n bmin bmax c)).
Variables X X1 X2 : cell -> axis -> R -> R.
Hypothesis Hpath : forall i j k p v, interior_cell n (i, j, k) -> node ov g i j k = Ok p -> aget ov g (lv_vel lv) i j k = Ok v ->
  in_lattice dim n bmin bmax (foot dt v p) /\ arrives dim dt (X (i, j, k)) (X1 (i, j, k)) (X2 (i, j, k)) p v K /\
  centre_box dim n bmin bmax (start dim (X (i, j, k))).

Lemma foot_box x : in_lattice dim n bmin bmax x -> centre_box dim n bmin bmax (flat dim x).
Proof.
  intros H a. specialize (H a). cbv zeta in *. destruct (used dim a) eqn:Hu.
  - specialize (H eq_refl). replace (vget (flat dim x) a) with (vget x a); [lra|]. destruct a; cbn [flat vget vx vy vz]; rewrite ?Hu; reflexivity.
  - pose proof (proj1 (proj1 Hb)) as Hd. destruct a; cbn [flat vget vx vy vz]; rewrite ?Hu; auto. destruct dim as [|[|]]; cbn in Hu; try discriminate.
Qed.
Lemma flat_used x a : used dim a = true -> vget (flat dim x) a = vget x a.
Proof. intros Hu. destruct a; cbn [flat vget vx vy vz]; rewrite ?Hu; reflexivity. Qed.

Lemma step_error : exists l', sl_compute ov g dt lv l = Ok l' /\ only_interior ov dim n 1 g l l' /\
  forall i j k, interior_cell n (i, j, k) -> exists p v m phi psi, node ov g i j k = Ok p /\ aget ov g (lv_vel lv) i j k = Ok v /\
    aget ov g (lv_grad lv) i j k = Ok m /\ aget ov g (ls_phi l') i j k = Ok phi /\ aget ov g (ls_psi l') i j k = Ok psi /\
    (let q := start dim (X (i, j, k)) in
     Rabs (phi - D 0%nat 0%nat 0%nat (vx q) (vy q) (vz q)) <=
       error_bound dim None (spacings n bmin bmax) M + K / 2 * dt ^ 2 * over_axes dim (slope_bound M)) /\
    (let q := flat dim (foot dt v p) in let w r a := (if axis_eqb r a then 1 else 0) - dt * mget m r a in
     forall a, Rabs (vget psi a - over_axes dim (fun r => w r a * first_order D r (vx q) (vy q) (vz q))) <=
       over_axes dim (fun r => Rabs (w r a) * error_bound dim (Some r) (spacings n bmin bmax) M)).
Proof.
  assert (A : forall i j k p v, interior_cell n (i, j, k) -> node ov g i j k = Ok p -> aget ov g (lv_vel lv) i j k = Ok v ->
     exists f, interpolate ov g (foot dt v p) l false = Ok f).
  { intros i j k p v Hi Np Ev. destruct (Hpath i j k p v Hi Np Ev) as (Hx & _).
    destruct (interp_accuracy ov dim n bmin bmax g l Hb Hl Hbox Hdef D M SD HM _ HS Hx) as (f & E & _). eauto. }
  destruct (sl_general ov dim n 1 bmin bmax g dt lv l Hb Hl Hv A) as (l' & E & O & H).
  exists l'. split; [exact E|]. split; [exact O|]. intros i j k Hi.
  destruct (H i j k Hi) as (p & v & m & f & y & Np & Ev & Em & Ef & Ephi & Epsi & EY).
  exists p, v, m, (f_phi f), y. repeat (split; [assumption|]).
  destruct (Hpath i j k p v Hi Np Ev) as (Hx & Ha & Hs).
  destruct (interp_accuracy ov dim n bmin bmax g l Hb Hl Hbox Hdef D M SD HM _ HS Hx) as (f' & Ef' & F1 & F2).
  rewrite Ef in Ef'. injection Ef' as <-. cbv zeta in *.
  pose proof (proj1 (proj1 Hb)) as Hd. split.
  - set (q := start dim (X (i, j, k))) in *. set (r := flat dim (foot dt v p)) in *.
    assert (BM : Rabs (D 0%nat 0%nat 0%nat (vx r) (vy r) (vz r) - D 0%nat 0%nat 0%nat (vx q) (vy q) (vz q)) <= K / 2 * dt ^ 2 * over_axes dim (slope_bound M)).
    { eapply box_move; eauto.
      - apply foot_box. exact Hx.
      - intros a Hu. destruct (Ha a Hu) as (T & E1 & E2). unfold r. rewrite flat_used by exact Hu.
        pose proof (taylor1_back dt K _ _ _ Hdt T) as TB. rewrite E1, E2 in TB. rewrite Rabs_minus_sym.
        replace (vget q a) with (X (i, j, k) a 0) by (unfold q, start; destruct a; cbn [vget vx vy vz]; rewrite Hu; reflexivity).
        replace (vget (foot dt v p) a) with (vget p a - dt * vget v a) by (destruct a; reflexivity). exact TB. }
    replace (f_phi f - D 0%nat 0%nat 0%nat (vx q) (vy q) (vz q)) with
      ((f_phi f - D 0%nat 0%nat 0%nat (vx r) (vy r) (vz r)) + (D 0%nat 0%nat 0%nat (vx r) (vy r) (vz r) - D 0%nat 0%nat 0%nat (vx q) (vy q) (vz q))) by ring.
    eapply Rle_trans; [apply Rabs_triang|]. lra.
  - intros a. rewrite EY. set (q := flat dim (foot dt v p)) in *.
    assert (Z0 : forall r, used dim r = false -> vget (f_psi f) r = 0).
    { intros r Hu. pose proof (interp_HD ov dim n bmin bmax g l Hb Hl Hbox Hdef _ Hx) as (f' & Ef' & _ & Q). rewrite Ef in Ef'. injection Ef' as <-.
      rewrite Q. unfold ProofsHermiteCell.hpsi. rewrite Hu. reflexivity. }
    assert (T : forall r u, u = vget (f_psi f) r -> let w := (if axis_eqb r a then 1 else 0) - dt * mget m r a in
       Rabs (w * u - (if used dim r then w * first_order D r (vx q) (vy q) (vz q) else 0)) <=
       (if used dim r then Rabs w * error_bound dim (Some r) (spacings n bmin bmax) M else 0)).
    { intros r u -> w. destruct (used dim r) eqn:Hu.
      - rewrite <- Rmult_minus_distr_l, Rabs_mult. apply Rmult_le_compat_l; [apply Rabs_pos|]. apply F2. exact Hu.
      - rewrite (Z0 r Hu). rewrite Rmult_0_r, Rminus_0_r, Rabs_R0. lra. }
    pose proof (T AX _ eq_refl) as T1. pose proof (T AY _ eq_refl) as T2. pose proof (T AZ _ eq_refl) as T3. cbv zeta in T1, T2, T3. cbn [vget] in T1, T2, T3.
    unfold over_axes.
    match goal with |- Rabs (?a + ?b + ?c - (?a' + ?b' + ?c')) <= _ => replace (a + b + c - (a' + b' + c')) with ((a - a') + (b - b') + (c - c')) by ring end.
    eapply Rle_trans; [apply Rabs_triang|]. eapply Rle_trans; [apply Rplus_le_compat_r, Rabs_triang|]. lra.
Qed.
End Step.

(** a case: the expanding flow V(x) = x/4 *)
Definition grow (p : vec3 R) : vec3 R := V3 (vx p / 4) (vy p / 4) 0.
Definition growm : mat3 R := M3 (V3 (/ 4) 0 0) (V3 0 (/ 4) 0) (V3 0 0 0).
Lemma exp_path c s t : derivable_pt_lim (fun t => c * exp ((t - s) / 4)) t (c / 4 * exp ((t - s) / 4)).
Proof.
  eapply d_eq; [apply (derivable_pt_lim_scal (fun t => exp ((t - s) / 4)) c)|].
  - apply (derivable_pt_lim_comp (fun t => (t - s) / 4) exp); [|apply derivable_pt_lim_exp].
    apply derivable_pt_lim_ext with (f := fun t => / 4 * t - s / 4); [intros; field|].
    eapply d_eq; [apply (derivable_pt_lim_minus (fun t => / 4 * t) (fun _ => s / 4)); [apply d_lin|apply d_const]|]. reflexivity.
  - field.
Qed.
Lemma c99_case : exists g lv l X X1 X2,
  built Wrap 2 (V3 4 3 1)%Z 1 lo1 hi1 g /\ levelset_on g l /\ velocity_on g lv /\ proper_box 2 lo1 hi1 /\ interp_defined Wrap 2 /\ smooth sin3 /\
  (forall i j k p, (i <= 4)%nat -> (j <= 4)%nat -> (k <= 4)%nat -> centre_box 2 (V3 4 3 1)%Z lo1 hi1 p -> Rabs (sin3 i j k (vx p) (vy p) (vz p)) <= 1) /\
  stores Wrap 2 (V3 4 3 1)%Z 1 g l (fun c => jet sin3 (centre_pos 2 (V3 4 3 1)%Z lo1 hi1 c)) /\
  (forall i j k p v, interior_cell (V3 4 3 1)%Z (i, j, k) -> node Wrap g i j k = Ok p -> aget Wrap g (lv_vel lv) i j k = Ok v ->
    in_lattice 2 (V3 4 3 1)%Z lo1 hi1 (foot (/ 10) v p) /\ arrives 2 (/ 10) (X (i, j, k)) (X1 (i, j, k)) (X2 (i, j, k)) p v (/ 16) /\
    centre_box 2 (V3 4 3 1)%Z lo1 hi1 (start 2 (X (i, j, k)))).
Proof.
  destruct (built_2d (T := R) Wrap lo1 hi1) as (g & Hb).
  destruct (velocity_exists _ _ _ _ _ _ g grow (fun _ => growm) Hb) as (lv & Hv & V).
  destruct (stores_exists _ _ _ _ _ _ g (fun c => jet sin3 (centre_pos 2 (V3 4 3 1)%Z lo1 hi1 c)) Hb) as (l & Hl & HS).
  set (E := fun t => exp ((t - / 10) / 4)).
  set (P := fun (c : cell) a => vget (centre_pos 2 (V3 4 3 1)%Z lo1 hi1 c) a).
  exists g, lv, l, (fun c a t => P c a * E t), (fun c a t => P c a / 4 * E t), (fun c a t => P c a / 4 / 4 * E t).
  split; [exact Hb|]. split; [exact Hl|]. split; [exact Hv|]. split; [apply unit_box|]. split; [left; reflexivity|]. split; [exact sin3_smooth|].
  split; [intros; apply sin3_bound|]. split; [exact HS|].
  intros i j k p v Hi Np Ev. assert (Hp : padded_cell 2 (V3 4 3 1)%Z 1 (i, j, k)) by (eapply interior_padded; [apply Hb|exact Hi]).
  destruct (V i j k p Hp Np) as (V1 & _). rewrite Ev in V1. injection V1 as ->.
  pose proof (interior_in_box _ _ _ _ _ _ _ _ _ _ Hb (unit_box 2) Hi Np) as B.
  pose proof (B AX eq_refl) as BX. pose proof (B AY eq_refl) as BY.
  destruct (node_at_centre_pad1 _ _ _ _ _ _ _ _ _ Hb Hp) as (p' & Np' & Vp). rewrite Np in Np'. injection Np' as <-.
  assert (EP : forall a, used 2 a = true -> P (i, j, k) a = vget p a).
  { intros a Hu. unfold P. rewrite Vp, centre_coord. reflexivity. }
  assert (E1 : E (/ 10) = 1) by (unfold E; replace ((/ 10 - / 10) / 4) with 0 by field; apply exp_0).
  assert (EB : forall t, 0 <= t <= / 10 -> 0 < E t <= 1).
  { intros t Ht. unfold E. split; [apply exp_pos|]. rewrite <- exp_0. destruct (Req_dec t (/ 10)) as [->|Hn].
    - right. f_equal. field.
    - left. apply exp_increasing. lra. }
  cbn [vget lo1 hi1 vx vy vz] in BX, BY. split; [|split].
  - intros a U. unfold spacing. destruct a; cbn in *; try discriminate; lra.
  - intros a U. rewrite (EP a U). assert (BA : -1 < vget p a < 1) by (destruct a; try discriminate; cbn [vget]; lra).
    split; [|split].
    + intros t Ht. split; [apply exp_path|]. split; [apply exp_path|]. specialize (EB t Ht).
      assert (Q1 : Rabs (vget p a / 4 / 4) <= / 16) by (apply Rabs_le; lra). rewrite Rabs_mult, (Rabs_pos_eq (E t)) by lra.
      rewrite <- (Rmult_1_r (/ 16)). apply Rmult_le_compat; try lra. apply Rabs_pos.
    + rewrite E1. ring.
    + rewrite E1. destruct a; try discriminate; cbn [vget grow vx vy]; ring.
  - specialize (EB 0 ltac:(lra)). pose proof (EP AX eq_refl) as EX. pose proof (EP AY eq_refl) as EY. cbn [vget] in EX, EY.
    assert (G : forall z, -1 < z < 1 -> -1 <= z * E 0 <= 1).
    { intros z Hz. assert (Q : Rabs (z * E 0) <= 1); [|unfold Rabs in Q; destruct Rcase_abs; lra].
      rewrite Rabs_mult, (Rabs_pos_eq (E 0)) by lra. rewrite <- (Rmult_1_r 1). apply Rmult_le_compat; try lra; [apply Rabs_pos|apply Rabs_le; lra]. }
    pose proof (G _ BX) as GX. pose proof (G _ BY) as GY.
    intros a. unfold start, spacing. destruct a; cbn [used Nat.leb vget vx vy vz lo1 hi1]; rewrite ?EX, ?EY; auto; cbn; lra.
Qed.
