(** A step at rest in double arithmetic. *)
From Coq Require Import ZArith List Bool Lia Reals Lra.
From Flocq Require Import Core BinarySingleNaN.
From Verif Require Import Base Num NumB64 ModelVec ModelGrid ModelArray ModelInterp ModelTemporal SpecGrid SpecInterp SpecTemporal SpecB64 SpecRound
  ProofsBase ProofsGrid ProofsArray ProofsGridProps ProofsHermiteCell ProofsInterp ProofsInterpProps ProofsInterpApi ProofsTemporal
  ProofsB64 ProofsB64Ops ProofsB64Grid ProofsB64Interp ProofsB64Cases ProofsRoundInterp ProofsRoundStep.
Open Scope R_scope.

Lemma zero_finite : is_finite (b64_make 0 0) = true /\ real (b64_make 0 0) = 0.
Proof. apply (real_int 0). lia. Qed.

Section Rest.
Variables (ov : ovmode) (dim : nat) (n : vec3 Z) (bmin bmax : vec3 b64) (g : grid b64) (l : levelset b64)
  (S : cell -> cell_values) (M rho : R) (lv : ls_velocity b64) (dt : b64) (hm : R).
Hypothesis Hb : built ov dim n 1 bmin bmax g.
Hypothesis Hl : levelset_on g l.
Hypothesis HS : stores64 ov dim n 1 g l S.
Hypothesis Hdef : interp_defined ov dim.
Hypothesis Hf : fine_box dim rho n bmin bmax.
Hypothesis HM : moderate M.
Let h : vec3 R := spacings n (reals bmin) (reals bmax).
Hypothesis Hz : sized dim n 1 h M S.
Hypothesis Hv : velocity_on g lv.
Hypothesis Hdt : is_finite dt = true.
Hypothesis H0 : forall i j k, interior_cell n (i, j, k) -> aget ov g (lv_vel lv) i j k = Ok vzero /\ aget ov g (lv_grad lv) i j k = Ok mzero.
Hypothesis Hhm : moderate hm.
Hypothesis Hmin : forall a, used dim a = true -> hm <= vget h a.

Lemma rest_bound : exists l', sl_compute ov g dt lv l = Ok l' /\
  forall i j k, interior_cell n (i, j, k) ->
    (exists p0 p, aget ov g (ls_phi_prev l) i j k = Ok p0 /\ aget ov g (ls_phi l') i j k = Ok p /\
       Rabs (real p - real p0) <= round_bound dim rho * M) /\
    (exists s0 s, aget ov g (ls_psi_prev l) i j k = Ok s0 /\ aget ov g (ls_psi l') i j k = Ok s /\
       forall a, used dim a = true -> Rabs (real (vget s a) - real (vget s0 a)) <= 8 * round_bound dim rho * (M / hm)).
Proof.
  destruct Hb as (Hg & Ha & _). destruct (built_exists ov dim n 1 (reals bmin) (reals bmax) Hg Ha) as (gR & HbR).
  destruct (stores_exists ov dim n 1 _ _ gR S HbR) as (lR & HlR & HSR).
  pose proof (fun A d => fresh_array (A := A) _ _ _ _ _ _ gR d HbR) as KR.
  set (lvR := mkLV (array_ctor gR (vzero : vec3 R)) (array_ctor gR (mzero : mat3 R))).
  assert (HvR : velocity_on gR lvR) by (split; apply KR).
  assert (PAD : forall c, interior_cell n c -> padded_cell dim n 1 c) by (intros c Hc; eapply interior_padded; [exact Hg|exact Hc]).
  destruct zero_finite as (F0 & E0).
  assert (Z0 : forall a, vget (vzero : vec3 b64) a = b64_make 0 0) by (intros [| |]; reflexivity).
  assert (Z1 : forall a b, mget (mzero : mat3 b64) a b = b64_make 0 0) by (intros [| |] [| |]; reflexivity).
  assert (M0 : mreals mzero = mzero).
  { unfold mreals, reals, mzero, vzero. cbn [row0 row1 row2 vx vy vz]. change (real (nofZ 0)) with (real (b64_make 0 0)). rewrite E0. reflexivity. }
  assert (SV : same_velocity ov dim n bmin bmax dt g lv gR lvR).
  { intros i j k Hc. destruct (H0 i j k Hc) as (V0 & G0). split.
    - exists vzero, vzero. split; [exact V0|]. split; [apply KR; auto|]. split.
      + intros a Hu. rewrite Z0, E0. split; [exact F0|]. split; [exact Hdt|]. rewrite Rmult_0_l, Rabs_R0.
        destruct (proj2 Hf a Hu) as (_ & _ & _ & [D1 _] & _). pose proof (bpow_gt_0 radix2 (-200)). lra.
      + intros a Hu. rewrite Z0, E0. destruct a; reflexivity.
    - exists mzero. split; [exact G0|]. split; [rewrite M0; apply KR; auto|]. intros a b. rewrite Z1, E0. split; [exact F0|]. rewrite Rmult_0_l, Rabs_R0. lra. }
  destruct (step_bound ov dim n bmin bmax g l gR lR S M rho Hb HbR Hl HlR Hdef Hf HS HSR HM Hz lv lvR dt hm Hv HvR SV Hhm Hmin) as (l' & lR' & E & ER & B).
  exists l'. split; [exact E|].
  set (valR := fun c : cell => mkFields (cv (S c)) (V3 (cv_x (S c)) (if used dim AY then cv_y (S c) else 0) (if used dim AZ then cv_z (S c) else 0))).
  destruct (sl_done_api ov dim n 1 (reals bmin) (reals bmax) gR (real dt) lvR lR valR HbR HlR HvR) as (lR'' & ER'' & _ & VR).
  { intros i j k y w Hc Ey Ew. unfold lvR in Ew. cbn [lv_vel] in Ew. rewrite (proj2 (KR _ vzero)) in Ew by auto. assert (w = vzero) by congruence. subst w.
    replace (vsub y (vscale vzero (real dt))) with y by (destruct y as [y1 y2 y3]; unfold vsub, vscale, vzero; cbn [vx vy vz nsub nmul nofZ NumR]; f_equal; ring).
    destruct (interp_node ov dim n (reals bmin) (reals bmax) gR lR HbR HlR (proper_reals dim n bmin bmax rho Hf) Hdef i j k y (PAD _ Hc)) as (f & phi & psi & If & Ip & Is & P1 & P2).
    - intros a _. specialize (Hc a). lia.
    - exact Ey.
    - rewrite If. destruct (HSR i j k (PAD _ Hc)) as (A1 & A2 & _). assert (EP : phi = cv (S (i, j, k))) by congruence. assert (ES : psi = V3 (cv_x (S (i, j, k))) (cv_y (S (i, j, k))) (cv_z (S (i, j, k)))) by congruence. rewrite EP in P1. rewrite ES in P2.
      f_equal. destruct f as [fp fs]. unfold valR. cbn [f_phi f_psi] in *. rewrite P1. f_equal. apply vec_ext. intros a. rewrite P2. destruct a; reflexivity. }
  assert (lR'' = lR') by congruence. subst lR''.
  intros i j k Hc. destruct (B i j k Hc) as ((p & pR & P1 & P2 & _ & P3) & (s & sR & Q1 & Q2 & Q3)).
  destruct (VR i j k Hc) as (m & Em & V1 & V2). unfold lvR in Em. cbn [lv_grad] in Em. rewrite (proj2 (KR _ mzero)) in Em by auto. assert (m = mzero) by congruence. subst m.
  destruct (HS i j k (PAD _ Hc)) as ((p0 & A1 & _ & A2) & (s0 & A3 & (_ & A4) & A5 & A6) & _).
  assert (pR = cv (S (i, j, k))) by (rewrite V1 in P2; unfold valR in P2; cbn [f_phi] in P2; congruence). subst pR.
  split; [exists p0, p; split; [exact A1|]; split; [exact P1|]; rewrite A2; exact P3|].
  exists s0, s. split; [exact A3|]. split; [exact Q1|]. intros a Hu. specialize (Q3 a Hu). destruct Q3 as (_ & Q3).
  replace (real (vget s0 a)) with (vget sR a); [exact Q3|]. assert (EQ : sR = mdot (msub midentity (mscale mzero (real dt))) (f_psi (valR (i, j, k)))) by congruence.
  rewrite EQ, mdot_get, !mid_get. unfold valR. cbn [f_psi vx vy vz nadd nsub nmul nofZ NumR].
  assert (MZ : forall a b, mget (mzero : mat3 R) a b = 0) by (intros [| |] [| |]; reflexivity). rewrite !MZ.
  destruct a; cbn [axis_eqb vget]; try rewrite Hu.
  - rewrite A4. ring.
  - destruct (A5 Hu) as (_ & ->). ring.
  - destruct (A6 Hu) as (_ & ->). ring.
Qed.
End Rest.
