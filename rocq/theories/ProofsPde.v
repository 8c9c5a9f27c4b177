(** One semi-Lagrangian step of the library in the plane, compared with the solution of the level set equation. *)
From Coq Require Import ZArith List Reals Lra Lia.
From Coquelicot Require Import Rcomplements Derive Derive_2d.
From Verif Require Import Base Num ModelVec ModelGrid ModelArray ModelInterp ModelTemporal ModelRefMath SpecGrid SpecInterp SpecGradient SpecTemporal SpecAccuracy SpecPde
  SpecRef SpecRefOrder SpecRefSolve SpecRefExist ProofsBase ProofsGrid ProofsArray ProofsGridProps ProofsTaylor ProofsInterp ProofsInterpProps ProofsInterpApi ProofsTemporal ProofsTemporalCases
  ProofsAccuracy ProofsAccuracyStep ProofsRunStep ProofsRefOrder ProofsRefSmooth ProofsRefScale ProofsRefSolve ProofsRefFlowGrad ProofsRefSolveCases.
Open Scope R_scope.

(** the acceleration along a trajectory *)
Lemma trajectory_bend F Tp V K lo hi X Y : graded_velocity 1 V K F Tp -> lo <= hi -> follows F Tp lo hi X Y ->
  Rabs (X lo - (X hi - (hi - lo) * Velx F (X hi) (Y hi) hi Tp)) <= euler_origin (hi - lo) V K /\
  Rabs (Y lo - (Y hi - (hi - lo) * Vely F (X hi) (Y hi) hi Tp)) <= euler_origin (hi - lo) V K.
Proof.
  intros (Gu & Gv) Hlh HX. set (dt := hi - lo). assert (Hdt : 0 <= dt) by (unfold dt; lra).
  assert (SH : forall q q' t, derivable_pt_lim q (lo + t) q' -> derivable_pt_lim (fun s => q (lo + s)) t q').
  { intros q q' t D. eapply d_eq; [apply (derivable_pt_lim_comp (fun s => lo + s) q); [|exact D]|].
    - apply (derivable_pt_lim_plus (fun _ => lo) id); [apply d_const|apply derivable_pt_lim_id].
    - ring. }
  pose proof (graded_bounded _ _ _ _ Gu) as Vu. pose proof (graded_bounded _ _ _ _ Gv) as Vv.
  assert (T : forall w Z, graded3 1 V K w -> (forall s, lo <= s <= hi -> derivable_pt_lim Z s (w (X s) (Y s) s)) ->
    Rabs (Z lo - (Z hi - dt * w (X hi) (Y hi) hi)) <= euler_origin dt V K).
  { intros w Z (_ & wx & wy & ws & D & Bx & By & Bs) HZ.
    pose proof (graded_bounded _ _ _ _ Bx) as Bx0. pose proof (graded_bounded _ _ _ _ By) as By0. pose proof (graded_bounded _ _ _ _ Bs) as Bs0. clear Bx By Bs. rename Bx0 into Bx, By0 into By, Bs0 into Bs.
    pose proof (taylor1_back dt (V * K * (1 + 2 * V)) (fun t => Z (lo + t)) (fun t => w (X (lo + t)) (Y (lo + t)) (lo + t))
      (fun t => let x := X (lo + t) in let y := Y (lo + t) in let s := lo + t in wx x y s * Velx F x y s Tp + wy x y s * Vely F x y s Tp + ws x y s * 1) Hdt) as TB.
    cbv beta zeta in TB. rewrite Rplus_0_r in TB. replace (lo + dt) with hi in TB by (unfold dt; ring).
    unfold euler_origin. apply TB. clear TB. intros t Ht. assert (Hs : lo <= lo + t <= hi) by (unfold dt in Ht; lra). destruct (HX _ Hs) as (D1 & D2).
    split; [apply SH, HZ; exact Hs|]. split.
    - apply (SH (fun s => w (X s) (Y s) s)). apply (chain3 w wx wy ws X Y (fun s => s) (lo + t) _ _ 1 D D1 D2). apply derivable_pt_lim_id.
    - specialize (Bx (X (lo + t)) (Y (lo + t)) (lo + t)). specialize (By (X (lo + t)) (Y (lo + t)) (lo + t)). specialize (Bs (X (lo + t)) (Y (lo + t)) (lo + t)).
      specialize (Vu (X (lo + t)) (Y (lo + t)) (lo + t)). specialize (Vv (X (lo + t)) (Y (lo + t)) (lo + t)). cbv beta in Vu, Vv.
      eapply Rle_trans; [apply Rabs_triang|]. eapply Rle_trans; [apply Rplus_le_compat_r, Rabs_triang|]. rewrite !Rabs_mult, Rabs_R1.
      pose proof (Rmult_le_compat _ _ _ _ (Rabs_pos _) (Rabs_pos _) Bx Vu). pose proof (Rmult_le_compat _ _ _ _ (Rabs_pos _) (Rabs_pos _) By Vv). lra. }
  split; [apply (T _ X Gu)|apply (T _ Y Gv)]; intros s Hs; apply HX; exact Hs.
Qed.

Section Step.
Variables (ov : ovmode) (n : vec3 Z) (bmin bmax : vec3 R) (g : grid R) (dt : R) (lv : ls_velocity R) (l : levelset R).
Hypothesis Hb : built ov 2 n 1 bmin bmax g.
Hypothesis Hl : levelset_on g l.
Hypothesis Hv : velocity_on g lv.
Hypothesis Hbox : proper_box 2 bmin bmax.
Hypothesis Hdef : interp_defined ov 2.
Hypothesis Hdt : 0 <= dt.
Variables (D : nat -> nat -> nat -> R -> R -> R -> R) (M : nat -> nat -> nat -> R).
Hypothesis SD : smooth D.
Hypothesis HM : forall i j k p, (i <= 4)%nat -> (j <= 4)%nat -> (k <= 4)%nat -> centre_box 2 n bmin bmax p ->
  Rabs (D i j k (vx p) (vy p) (vz p)) <= M i j k.
Hypothesis HS : stores ov 2 n 1 g l (fun c => jet D (centre_pos 2 n bmin bmax c)).

Lemma feet_box x : in_lattice 2 n bmin bmax x -> centre_box 2 n bmin bmax (flat 2 x).
Proof.
  intros H a. specialize (H a). cbv zeta in *. destruct a; cbn [used Nat.leb flat vget vx vy vz] in *; [specialize (H eq_refl); lra|specialize (H eq_refl); lra|reflexivity].
Qed.
(** the step relative to the foot of the straight line *)
Lemma step_feet : (forall i j k p v, interior_cell n (i, j, k) -> node ov g i j k = Ok p -> aget ov g (lv_vel lv) i j k = Ok v -> in_lattice 2 n bmin bmax (foot dt v p)) ->
  exists l', sl_compute ov g dt lv l = Ok l' /\ only_interior ov 2 n 1 g l l' /\
  forall i j k, interior_cell n (i, j, k) -> exists p v m phi psi, node ov g i j k = Ok p /\ aget ov g (lv_vel lv) i j k = Ok v /\
    aget ov g (lv_grad lv) i j k = Ok m /\ aget ov g (ls_phi l') i j k = Ok phi /\ aget ov g (ls_psi l') i j k = Ok psi /\
    let q := flat 2 (foot dt v p) in centre_box 2 n bmin bmax q /\
    Rabs (phi - D 0%nat 0%nat 0%nat (vx q) (vy q) (vz q)) <= error_bound 2 None (spacings n bmin bmax) M /\
    let w r a := (if axis_eqb r a then 1 else 0) - dt * mget m r a in
    forall a, Rabs (vget psi a - over_axes 2 (fun r => w r a * first_order D r (vx q) (vy q) (vz q))) <=
       over_axes 2 (fun r => Rabs (w r a) * error_bound 2 (Some r) (spacings n bmin bmax) M).
Proof.
  intros HF.
  set (P := fun (c : cell) => centre_pos 2 n bmin bmax c).
  set (W := fun (c : cell) => match c with (i, j, k) => match aget ov g (lv_vel lv) i j k with Ok v => v | _ => V3 0 0 0 end end).
  destruct (step_error ov 2 n bmin bmax g dt 0 lv l Hb Hl Hv Hbox Hdef Hdt D M SD HM HS
    (fun c a t => vget (P c) a - dt * vget (W c) a + vget (W c) a * t) (fun c a _ => vget (W c) a) (fun _ _ _ => 0)) as (l' & E & O & H).
  { intros i j k p v Hi Np Ev. pose proof (HF i j k p v Hi Np Ev) as HL. split; [exact HL|].
    assert (EP : P (i, j, k) = p) by (symmetry; apply (node_centre ov 2 n bmin bmax g Hb); [eapply interior_padded; [apply Hb|exact Hi]|exact Np]).
    assert (EW : W (i, j, k) = v) by (unfold W; rewrite Ev; reflexivity). rewrite EP, EW. split.
    - intros a Hu. split; [|split; [ring|reflexivity]]. intros t Ht. split; [|split; [apply d_const|rewrite Rabs_R0; lra]].
      eapply d_eq; [apply (derivable_pt_lim_plus (fun _ => vget p a - dt * vget v a) (fun t => vget v a * t)); [apply d_const|apply d_lin]|ring].
    - pose proof (feet_box _ HL) as B. intros a. specialize (B a). unfold start. destruct a; cbn [used Nat.leb flat vget vx vy vz foot] in *; rewrite ?Rmult_0_r, ?Rplus_0_r; exact B. }
  exists l'. split; [exact E|]. split; [exact O|]. intros i j k Hi.
  destruct (H i j k Hi) as (p & v & m & phi & psi & Np & Ev & Em & E1 & E2 & B1 & B2).
  exists p, v, m, phi, psi. repeat (split; [assumption|]). pose proof (HF i j k p v Hi Np Ev) as HL. cbv zeta.
  split; [apply (feet_box _ HL)|]. split; [|exact B2].
  assert (EP : P (i, j, k) = p) by (symmetry; apply (node_centre ov 2 n bmin bmax g Hb); [eapply interior_padded; [apply Hb|exact Hi]|exact Np]).
  assert (EW : W (i, j, k) = v) by (unfold W; rewrite Ev; reflexivity). rewrite EP, EW in B1. unfold start in B1. cbv zeta in B1.
  cbn [used Nat.leb vx vy vz vget flat foot] in *. rewrite !Rmult_0_r, !Rplus_0_r in B1. unfold Rdiv in B1 at 1. rewrite !Rmult_0_l, Rplus_0_r in B1. exact B1.
Qed.

(** derivatives of D move little over a short distance in the box *)
Lemma slope_moves (a : axis) (q r : vec3 R) d : a <> AZ -> centre_box 2 n bmin bmax q -> centre_box 2 n bmin bmax r ->
  (forall a, used 2 a = true -> Rabs (vget q a - vget r a) <= d) ->
  Rabs (first_order D a (vx q) (vy q) (vz q) - first_order D a (vx r) (vy r) (vz r)) <=
    d * match a with AX => M 2%nat 0%nat 0%nat + M 1%nat 1%nat 0%nat | _ => M 1%nat 1%nat 0%nat + M 0%nat 2%nat 0%nat end.
Proof.
  intros Ha Hq Hr Hdist. destruct q as [qx qy qz], r as [rx ry rz]. cbn [vx vy vz].
  assert (Z : qz = rz) by (pose proof (Hq AZ) as A1; pose proof (Hr AZ) as A2; cbn in A1, A2; congruence). subst rz.
  pose proof (Hdist AX eq_refl) as dX. pose proof (Hdist AY eq_refl) as dY. cbn [vget vx vy] in dX, dY.
  assert (MM : forall u v, Rmin u v <= u <= Rmax u v /\ Rmin u v <= v <= Rmax u v) by (intros u v; unfold Rmin, Rmax; destruct Rle_dec; lra).
  pose proof (MM qx rx). pose proof (MM qy ry). pose proof (MM qz qz).
  assert (G : forall i j, (i <= 3)%nat -> (j <= 3)%nat -> Rabs (D i j 0%nat qx qy qz - D i j 0%nat rx ry qz) <= d * (M (S i) j 0%nat + M i (S j) 0%nat)).
  { intros i j Hi Hj.
    assert (L1 : Rabs (D i j 0%nat qx qy qz - D i j 0%nat rx qy qz) <= M (S i) j 0%nat * Rabs (qx - rx)).
    { apply (lipschitz (fun t => D i j 0%nat t qy qz) (fun t => D (S i) j 0%nat t qy qz)). intros t Ht. split; [apply SD|].
      apply (HM (S i) j 0 (V3 t qy qz)); try lia. eapply box_between; [exact Hq|exact Hr|]. intros [| |]; cbn [vget vx vy vz]; lra. }
    assert (L2 : Rabs (D i j 0%nat rx qy qz - D i j 0%nat rx ry qz) <= M i (S j) 0%nat * Rabs (qy - ry)).
    { apply (lipschitz (fun t => D i j 0%nat rx t qz) (fun t => D i (S j) 0%nat rx t qz)). intros t Ht. split; [apply SD|].
      apply (HM i (S j) 0 (V3 rx t qz)); try lia. eapply box_between; [exact Hq|exact Hr|]. intros [| |]; cbn [vget vx vy vz]; lra. }
    assert (P : forall i j, (i <= 4)%nat -> (j <= 4)%nat -> 0 <= M i j 0%nat).
    { intros i' j' Hi' Hj'. eapply Rle_trans; [apply Rabs_pos|apply (HM i' j' 0 _ Hi' Hj' ltac:(lia) Hq)]. }
    pose proof (Rmult_le_compat_l _ _ _ (P (S i) j ltac:(lia) ltac:(lia)) dX). pose proof (Rmult_le_compat_l _ _ _ (P i (S j) ltac:(lia) ltac:(lia)) dY).
    replace (D i j 0%nat qx qy qz - D i j 0%nat rx ry qz) with ((D i j 0%nat qx qy qz - D i j 0%nat rx qy qz) + (D i j 0%nat rx qy qz - D i j 0%nat rx ry qz)) by ring.
    eapply Rle_trans; [apply Rabs_triang|]. lra. }
  destruct a; cbn [first_order]; [apply (G 1%nat 0%nat); lia|apply (G 0%nat 1%nat); lia|congruence].
Qed.

Variables (F : flow R) (Tp V K lo : R) (u : R -> R -> R -> R).
Hypothesis HV : graded_velocity 2 V K F Tp.
Hypothesis HG : true_gradients F Tp.
Hypothesis Hu : solves F Tp lo (lo + dt) u.
Hypothesis Hu0 : forall x y, u x y lo = D 0%nat 0%nat 0%nat x y 0.
Hypothesis HF : holds_flow ov n g F Tp (lo + dt) lv.
Hypothesis CX : V * dt < spacing (vx bmin) (vx bmax) (vx n).
Hypothesis CY : V * dt < spacing (vy bmin) (vy bmax) (vy n).

Lemma step_solves : exists l', sl_compute ov g dt lv l = Ok l' /\ only_interior ov 2 n 1 g l l' /\
  forall i j k, interior_cell n (i, j, k) -> exists p phi psi, node ov g i j k = Ok p /\ aget ov g (ls_phi l') i j k = Ok phi /\ aget ov g (ls_psi l') i j k = Ok psi /\
    Rabs (phi - u (vx p) (vy p) (lo + dt)) <= step_value_error n bmin bmax M dt V K /\
    (V * K * dt <= 1 / 4 -> exists ux uy, differentiable_pt_lim (fun x y => u x y (lo + dt)) (vx p) (vy p) ux uy /\
      Rabs (vx psi - ux) <= step_gradient_error n bmin bmax M dt V K /\ Rabs (vy psi - uy) <= step_gradient_error n bmin bmax M dt V K).
Proof.
  set (hi := lo + dt) in *. assert (Hlh : lo <= hi) by (unfold hi; lra). assert (Edt : hi - lo = dt) by (unfold hi; ring).
  pose proof (graded_bounded _ _ _ _ (proj1 HV)) as Vu. pose proof (graded_bounded _ _ _ _ (proj2 HV)) as Vv. cbv beta in Vu, Vv.
  assert (PV : 0 <= V) by (eapply Rle_trans; [apply Rabs_pos|apply (Vu 0 0 0)]).
  assert (HV1 : graded_velocity 1 V K F Tp) by exact (conj (graded_less _ _ _ _ (proj1 HV)) (graded_less _ _ _ _ (proj2 HV))).
  (* centres keep a cell away from the outermost ghost nodes *)
  assert (Deep : forall i j k p, interior_cell n (i, j, k) -> node ov g i j k = Ok p ->
    (forall d, Rabs d < spacing (vx bmin) (vx bmax) (vx n) -> let h := spacing (vx bmin) (vx bmax) (vx n) in vx bmin - h / 2 < vx p - d < vx bmax + h / 2) /\
    (forall d, Rabs d < spacing (vy bmin) (vy bmax) (vy n) -> let h := spacing (vy bmin) (vy bmax) (vy n) in vy bmin - h / 2 < vy p - d < vy bmax + h / 2)).
  { intros i j k p Hi Np. rewrite (node_centre ov 2 n bmin bmax g Hb i j k p (interior_padded _ _ _ _ (proj1 Hb) Hi) Np).
    assert (Q : forall b e m (c : Z), b < e -> (0 <= c < m)%Z -> forall d, Rabs d < spacing b e m -> b - spacing b e m / 2 < centre b e m c - d < e + spacing b e m / 2).
    { intros b e m c Hbe Hc d Hd. assert (E1 : spacing b e m * IZR m = e - b) by (unfold spacing; field; apply not_0_IZR; lia).
      assert (SP : 0 < spacing b e m) by (apply spacing_pos; [exact Hbe|lia]).
      assert (C0 : 0 <= IZR c) by (apply IZR_le; lia). assert (C1 : IZR c + 1 <= IZR m) by (rewrite <- plus_IZR; apply IZR_le; lia).
      pose proof (Rmult_le_compat_l _ _ _ (Rlt_le _ _ SP) C0). pose proof (Rmult_le_compat_l _ _ _ (Rlt_le _ _ SP) C1).
      unfold centre. apply Rabs_def2 in Hd. lra. }
    split; intros d Hd h; unfold centre_pos; cbn [used Nat.leb vx vy ccoord vget]; [apply (Q _ _ _ i)|apply (Q _ _ _ j)]; try exact Hd;
      [apply (Hbox AX eq_refl)|apply (Hi AX)|apply (Hbox AY eq_refl)|apply (Hi AY)]. }
  destruct step_feet as (l' & E & O & H).
  { intros i j k p v Hi Np Ev. destruct (Deep i j k p Hi Np) as (DX & DY). destruct (HF i j k p Hi Np) as ((w & Ev') & _). rewrite Ev in Ev'. injection Ev' as ->.
    intros a Ha. destruct a; cbn [used Nat.leb] in Ha; try discriminate; cbn [foot vget vx vy vz].
    - destruct (DX (dt * Velx F (vx p) (vy p) hi Tp)) as (A1 & A2); [|cbv zeta; lra]. rewrite Rabs_mult, (Rabs_pos_eq dt) by exact Hdt.
      pose proof (Rmult_le_compat_l _ _ _ Hdt (Vu (vx p) (vy p) hi)). lra.
    - destruct (DY (dt * Vely F (vx p) (vy p) hi Tp)) as (A1 & A2); [|cbv zeta; lra]. rewrite Rabs_mult, (Rabs_pos_eq dt) by exact Hdt.
      pose proof (Rmult_le_compat_l _ _ _ Hdt (Vv (vx p) (vy p) hi)). lra. }
  exists l'. split; [exact E|]. split; [exact O|]. intros i j k Hi.
  destruct (H i j k Hi) as (p & v & m & phi & psi & Np & Ev & Em & E1 & E2 & BQ & B1 & B2). clear H.
  exists p, phi, psi. repeat (split; [assumption|]).
  destruct (HF i j k p Hi Np) as ((w & Ev') & (m' & Em' & Mxx & Mxy & Myx & Myy)). rewrite Ev in Ev'. injection Ev' as ->. rewrite Em in Em'. injection Em' as <-.
  set (x := vx p) in *. set (y := vy p) in *.
  destruct (one_through F Tp V K lo hi x y HV1 Hlh) as (X & Y & HX & EX & EY & NX & _).
  destruct (trajectory_bend F Tp V K lo hi X Y HV1 Hlh HX) as (TX & TY). rewrite EX, EY, Edt in TX, TY.
  set (q := flat 2 (foot dt (V3 (Velx F x y hi Tp) (Vely F x y hi Tp) w) p)) in *. set (r := V3 (X lo) (Y lo) 0).
  assert (BR : centre_box 2 n bmin bmax r).
  { destruct (Deep i j k p Hi Np) as (DX & DY). destruct (NX lo ltac:(lra)) as (N1 & N2). rewrite Edt in N1, N2. fold x in DX. fold y in DY.
    intros a. destruct a; cbn [used Nat.leb r vget vx vy vz]; [..|reflexivity].
    - destruct (DX (x - X lo)) as (A1 & A2); [rewrite Rabs_minus_sym; lra|]. replace (x - (x - X lo)) with (X lo) in * by ring. cbv zeta. lra.
    - destruct (DY (y - Y lo)) as (A1 & A2); [rewrite Rabs_minus_sym; lra|]. replace (y - (y - Y lo)) with (Y lo) in * by ring. cbv zeta. lra. }
  assert (DQ : forall a, used 2 a = true -> Rabs (vget q a - vget r a) <= euler_origin dt V K).
  { intros a Ha. destruct a; cbn [used Nat.leb] in Ha; try discriminate; unfold q, r; cbn [flat used Nat.leb foot vget vx vy vz]; rewrite Rabs_minus_sym; assumption. }
  pose proof (carried F Tp lo hi u X Y Hlh Hu HX) as C. rewrite EX, EY, Hu0 in C.
  set (EO := euler_origin dt V K) in *.
  assert (MP : forall i j, (i <= 4)%nat -> (j <= 4)%nat -> 0 <= M i j 0%nat) by (intros i' j' Hi' Hj'; eapply Rle_trans; [apply Rabs_pos|apply (HM i' j' 0 _ Hi' Hj' ltac:(lia) BR)]).
  split.
  { rewrite C. pose proof (box_move 2 n bmin bmax D M ltac:(lia) SD HM q r EO BQ BR DQ) as BM.
    change (D 0%nat 0%nat 0%nat (X lo) (Y lo) 0) with (D 0%nat 0%nat 0%nat (vx r) (vy r) (vz r)).
    replace (phi - D 0%nat 0%nat 0%nat (vx r) (vy r) (vz r)) with ((phi - D 0%nat 0%nat 0%nat (vx q) (vy q) (vz q)) + (D 0%nat 0%nat 0%nat (vx q) (vy q) (vz q) - D 0%nat 0%nat 0%nat (vx r) (vy r) (vz r))) by ring.
    unfold over_axes in BM. cbn [used Nat.leb slope_bound] in BM. unfold step_value_error. fold EO. eapply Rle_trans; [apply Rabs_triang|]. lra. }
  intros CK. destruct Hu as (ux & uy & us & DU & HP).
  assert (Slice : forall s p q, differentiable_pt_lim (fun x y => u x y s) p q (ux p q s) (uy p q s)) by (intros; apply (diff3_plane u ux uy us); exact DU).
  exists (ux x y hi), (uy x y hi). split; [apply Slice|].
  assert (SA : ux (X lo) (Y lo) lo = D 1%nat 0%nat 0%nat (X lo) (Y lo) 0 /\ uy (X lo) (Y lo) lo = D 0%nat 1%nat 0%nat (X lo) (Y lo) 0).
  { destruct (differentiable_pt_lim_unique _ _ _ _ _ (Slice lo (X lo) (Y lo))) as (U1 & U2). split.
    - rewrite <- U1. apply is_derive_unique, is_derive_Reals. apply derivable_pt_lim_ext with (f := fun t => D 0%nat 0%nat 0%nat t (Y lo) 0); [intros; rewrite Hu0; reflexivity|apply SD].
    - rewrite <- U2. apply is_derive_unique, is_derive_Reals. apply derivable_pt_lim_ext with (f := fun t => D 0%nat 0%nat 0%nat (X lo) t 0); [intros; rewrite Hu0; reflexivity|apply SD]. }
  destruct SA as (SA & SB).
  assert (SO : forall i j, Rabs i <= 1 -> Rabs j <= 1 -> let ox := i - dt * (gradUx F x y hi Tp * i + gradUy F x y hi Tp * j) in let oy := j - dt * (gradVx F x y hi Tp * i + gradVy F x y hi Tp * j) in
     Rabs (ux x y hi * i + uy x y hi * j - (D 1%nat 0%nat 0%nat (X lo) (Y lo) 0 * ox + D 0%nat 1%nat 0%nat (X lo) (Y lo) 0 * oy)) <=
       4 * (M 1%nat 0%nat 0%nat + M 0%nat 1%nat 0%nat) * (V * K ^ 2 * (1 + 2 * V) + 2 * (V * K) ^ 2) * dt ^ 2).
  { intros i' j' Hi' Hj'. pose proof (solution_slopes F Tp V K lo hi u x y X Y _ _ _ _ i' j' HV HG Hlh PV ltac:(rewrite Edt; exact CK) (ex_intro _ ux (ex_intro _ uy (ex_intro _ us (conj DU HP)))) HX EX EY NX (Slice lo (X lo) (Y lo)) (Slice hi x y) Hi' Hj') as S0.
    cbv zeta in *. rewrite Edt, SA, SB in S0. eapply Rle_trans; [exact S0|].
    replace (4 * (M 1%nat 0%nat 0%nat + M 0%nat 1%nat 0%nat) * (V * K ^ 2 * (1 + 2 * V) + 2 * (V * K) ^ 2) * dt ^ 2) with
      ((M 1%nat 0%nat 0%nat + M 0%nat 1%nat 0%nat) * (4 * (V * K ^ 2 * (1 + 2 * V) + 2 * (V * K) ^ 2) * dt ^ 2)) by ring.
    pose proof (HM 1 0 0 r ltac:(lia) ltac:(lia) ltac:(lia) BR) as A1. pose proof (HM 0 1 0 r ltac:(lia) ltac:(lia) ltac:(lia) BR) as A2. cbn [r vx vy vz] in A1, A2.
    apply Rmult_le_compat_r; [|lra].
    assert (KK : 0 <= V * K ^ 2) by (apply Rmult_le_pos; [exact PV|apply pow2_ge_0]).
    apply Rmult_le_pos; [|apply pow2_ge_0]. apply Rmult_le_pos; [lra|]. apply Rplus_le_le_0_compat; [apply Rmult_le_pos; lra|]. pose proof (pow2_ge_0 (V * K)). lra. }
  (* the derivatives of the velocity are at most V K *)
  assert (GB : forall a b c d, gradUx F x y hi Tp = a -> gradUy F x y hi Tp = b -> gradVx F x y hi Tp = c -> gradVy F x y hi Tp = d -> Rabs a <= V * K /\ Rabs b <= V * K /\ Rabs c <= V * K /\ Rabs d <= V * K).
  { intros a b c d <- <- <- <-. destruct (HG x y hi) as (G1 & G2).
    assert (Q : forall wf a b, graded3 2 V K wf -> differentiable_pt_lim (fun x y => wf x y hi) x y a b -> Rabs a <= V * K /\ Rabs b <= V * K).
    { intros wf a b (_ & wx & wy & ws & Dw & Bx & By & _) Dp. pose proof (graded_bounded _ _ _ _ Bx) as Bx0. pose proof (graded_bounded _ _ _ _ By) as By0.
      destruct (differentiable_pt_lim_unique _ _ _ _ _ Dp) as (U1 & U2). destruct (differentiable_pt_lim_unique _ _ _ _ _ (diff3_plane wf wx wy ws x y hi Dw)) as (W1 & W2).
      rewrite <- U1, <- U2, W1, W2. split; [apply Bx0|apply By0]. }
    destruct (Q _ _ _ (proj1 HV) G1). destruct (Q _ _ _ (proj2 HV) G2). tauto. }
  destruct (GB _ _ _ _ eq_refl eq_refl eq_refl eq_refl) as (Gxx & Gxy & Gyx & Gyy). clear GB.
  pose proof (slope_moves AX q r EO ltac:(congruence) BQ BR DQ) as S1. pose proof (slope_moves AY q r EO ltac:(congruence) BQ BR DQ) as S2. cbn [first_order] in S1, S2.
  change (vx r) with (X lo) in S1, S2. change (vy r) with (Y lo) in S1, S2. change (vz r) with 0 in S1, S2.
  cbv zeta in B2.
  assert (EP : forall s, 0 <= error_bound 2 s (spacings n bmin bmax) M).
  { pose proof (Rmult_le_pos _ _ PV Hdt) as PVd. assert (HX0 : 0 < vx (spacings n bmin bmax)) by (unfold spacings; cbn [vx]; lra). assert (HY0 : 0 < vy (spacings n bmin bmax)) by (unfold spacings; cbn [vy]; lra).
    assert (OP : forall d h z, 0 < h -> 0 <= z -> 0 <= own d h z) by (intros d h z Hh Hz; unfold own; destruct d; apply Rmult_le_pos; try exact Hz; pose proof (pow_lt h 3 Hh); pose proof (pow_lt h 4 Hh); lra).
    assert (AP : forall d h a b, 0 < h -> 0 <= a -> 0 <= b -> 0 <= amp d h a b).
    { intros d h a b Hh Ha Hb0. unfold amp. destruct d.
      - apply Rplus_le_le_0_compat; [apply Rmult_le_pos; [apply Rlt_le, Rdiv_lt_0_compat; lra|exact Ha]|exact Hb0].
      - apply Rplus_le_le_0_compat; [exact Ha|apply Rmult_le_pos; lra]. }
    intros s. unfold error_bound. cbv zeta. apply Rplus_le_le_0_compat; [apply OP; [exact HX0|apply MP; [lia|destruct s as [[]|]; cbn; lia]]|].
    apply AP; [exact HX0|apply OP; [exact HY0|apply MP; lia]|apply OP; [exact HY0|apply MP; lia]]. }
  pose proof (EP (Some AX)) as PX. pose proof (EP (Some AY)) as PY.
  assert (Fin : forall a psia ua wx wy (c : R), c = 4 * (M 1%nat 0%nat 0%nat + M 0%nat 1%nat 0%nat) * (V * K ^ 2 * (1 + 2 * V) + 2 * (V * K) ^ 2) * dt ^ 2 -> a = true ->
     Rabs wx <= 5 / 4 -> Rabs wy <= 5 / 4 ->
     Rabs (psia - (wx * D 1%nat 0%nat 0%nat (vx q) (vy q) (vz q) + wy * D 0%nat 1%nat 0%nat (vx q) (vy q) (vz q) + 0)) <=
       Rabs wx * error_bound 2 (Some AX) (spacings n bmin bmax) M + Rabs wy * error_bound 2 (Some AY) (spacings n bmin bmax) M + 0 ->
     Rabs (ua - (D 1%nat 0%nat 0%nat (X lo) (Y lo) 0 * wx + D 0%nat 1%nat 0%nat (X lo) (Y lo) 0 * wy)) <= c ->
     Rabs (psia - ua) <= step_gradient_error n bmin bmax M dt V K).
  { intros a psia ua wx wy c Hc _ W1 W2 H1 H2. unfold step_gradient_error. fold EO. rewrite <- Hc.
    set (ex := error_bound 2 (Some AX) _ M) in *. set (ey := error_bound 2 (Some AY) _ M) in *.
    pose proof (Rmult_le_compat_r _ _ _ PX W1) as K1. pose proof (Rmult_le_compat_r _ _ _ PY W2) as K2.
    pose proof (Rmult_le_compat _ _ _ _ (Rabs_pos wx) (Rabs_pos _) W1 S1) as K3. pose proof (Rmult_le_compat _ _ _ _ (Rabs_pos wy) (Rabs_pos _) W2 S2) as K4.
    rewrite <- Rabs_mult in K3, K4.
    set (dx := D 1%nat 0%nat 0%nat (vx q) (vy q) (vz q)) in *. set (dy := D 0%nat 1%nat 0%nat (vx q) (vy q) (vz q)) in *.
    set (ax := D 1%nat 0%nat 0%nat (X lo) (Y lo) 0) in *. set (ay := D 0%nat 1%nat 0%nat (X lo) (Y lo) 0) in *.
    replace (psia - ua) with ((psia - (wx * dx + wy * dy + 0)) + wx * (dx - ax) + wy * (dy - ay) + - (ua - (ax * wx + ay * wy))) by ring.
    eapply Rle_trans; [apply Rabs_triang|]. eapply Rle_trans; [apply Rplus_le_compat_r, Rabs_triang|]. eapply Rle_trans; [apply Rplus_le_compat_r, Rplus_le_compat_r, Rabs_triang|].
    rewrite Rabs_Ropp. lra. }
  assert (WB : forall e z, (e = 0 \/ e = 1) -> Rabs z <= V * K -> Rabs (e - dt * z) <= 5 / 4).
  { intros e z He Hz. pose proof (Rmult_le_compat_l _ _ _ Hdt Hz) as Q1. assert (Q2 : Rabs (dt * z) <= 1 / 4) by (rewrite Rabs_mult, (Rabs_pos_eq dt) by exact Hdt; lra).
    apply Rabs_le_between in Q2. apply Rabs_le. destruct He as [-> | ->]; lra. }
  split.
  - pose proof (B2 AX) as BX. unfold over_axes in BX. cbn [used Nat.leb axis_eqb first_order vget] in BX. rewrite Mxx, Myx in BX.
    eapply (Fin true (vx psi) _ _ _ _ eq_refl eq_refl); [| |exact BX|]; [apply WB; auto|apply WB; auto|].
    pose proof (SO 1 0 ltac:(rewrite Rabs_R1; lra) ltac:(rewrite Rabs_R0; lra)) as S0. cbv zeta in S0. rewrite !Rmult_1_r, !Rmult_0_r, !Rplus_0_r in S0. exact S0.
  - pose proof (B2 AY) as BY. unfold over_axes in BY. cbn [used Nat.leb axis_eqb first_order vget] in BY. rewrite Mxy, Myy in BY.
    eapply (Fin true (vy psi) _ _ _ _ eq_refl eq_refl); [| |exact BY|]; [apply WB; auto|apply WB; auto|].
    pose proof (SO 0 1 ltac:(rewrite Rabs_R0; lra) ltac:(rewrite Rabs_R1; lra)) as S0. cbv zeta in S0. rewrite !Rmult_1_r, !Rmult_0_r, !Rplus_0_l in S0. exact S0.
Qed.
End Step.
