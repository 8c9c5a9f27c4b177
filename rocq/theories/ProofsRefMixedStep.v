(** The mixed derivatives after one time step of the reference programs and those of the solutions of the level set equation. *)
From Coq Require Import ZArith List Bool String Reals Lra Lia.
From Coquelicot Require Import Coquelicot.
From Verif Require Import Base Num ModelVec SpecGradient ModelRefMath ModelRefMem ModelRef SpecRef SpecRefRun SpecRefOrder SpecRefStep SpecRefSolve SpecRefGrad SpecRefMixed
  ProofsRefMath ProofsRefTrace ProofsRefSmooth ProofsRefSmoothCases ProofsRefHermite ProofsTaylor ProofsRefExact ProofsRefReal ProofsRefRunCases ProofsRefStepCases ProofsRefSolve ProofsRefSolveCases ProofsRefGradSolve ProofsRefGradThird ProofsRefGradCases ProofsRefMixed.
Import ListNotations.
Open Scope R_scope.

Lemma slopes_are (D : nat -> nat -> R -> R -> R) (u : R -> R -> R) x y ux uy : smooth2 D -> (forall x y, u x y = D 0%nat 0%nat x y) -> differentiable_pt_lim u x y ux uy ->
  ux = D 1%nat 0%nat x y /\ uy = D 0%nat 1%nat x y.
Proof.
  intros SD HE HD. destruct (differentiable_pt_lim_unique _ _ _ _ _ HD) as (<- & <-). split; apply is_derive_unique.
  - apply (is_derive_ext (fun x => D 0%nat 0%nat x y)); [intros z; symmetry; apply HE|apply is_derive_Reals, SD].
  - apply (is_derive_ext (fun y => D 0%nat 0%nat x y)); [intros z; symmetry; apply HE|apply is_derive_Reals, SD].
Qed.
Lemma from_slopes whole (F : flow R) s t f m m' D M (u : R -> R -> R) B i j : proper s -> nodes_at (s_nx s) (s_ny s) (node_x s) (node_y s) m -> contains (s_nx s) (s_ny s) f m ->
  step whole F s t m = Ok m' -> smooth2 D -> bounded_in_box s D M -> (forall x y, u x y = D 0%nat 0%nat x y) -> (0 <= i < s_ny s)%Z -> (0 <= j < s_nx s)%Z ->
  (forall i' j', uses (s_nx s) (s_ny s) i j i' j' -> exists gx gy ux uy, m' (MPsix, i', j') = Some (ModelRefMem.D gx) /\ m' (MPsiy, i', j') = Some (ModelRefMem.D gy) /\
     differentiable_pt_lim u (node_x s j') (node_y s i') ux uy /\ Rabs (gx - ux) <= B /\ Rabs (gy - uy) <= B) ->
  exists v, m' (MPsixy, i, j) = Some (ModelRefMem.D v) /\ Rabs (v - D 1%nat 1%nat (node_x s j) (node_y s i)) <= mixed_bound (s_nx s) (s_ny s) i j (s_dx s) (s_dy s) M B.
Proof.
  intros Hs HN Hf Em SD HM HE Hi Hj H. pose proof Hs as (N1 & N2 & L1 & L2).
  destruct (step_R whole F s t f m N1 N2 L1 L2 HN Hf) as (m2 & Em2 & _ & C & _). rewrite Em in Em2. injection Em2 as <-.
  destruct C as (_ & _ & _ & _ & _ & Cx & Cy & Cxy). 
  eexists. split; [exact (Cxy i j Hi Hj)|]. cbn [f_xy next].
  destruct (sorted_x s Hs) as (SX1 & SX2 & _). destruct (sorted_y s Hs) as (SY1 & SY2 & _).
  apply mixed_near; try lia; try (apply dx_pos; exact Hs); try (apply dy_pos; exact Hs); try exact SD.
  - fold (node_x s) (node_y s). rewrite SX1, SX2, SY1, SY2. intros a b p q Ha Hb Hp Hq. apply HM; assumption.
  - intros k l Hu. destruct (H k l Hu) as (gx & gy & ux & uy & G1 & G2 & HD & B1 & B2). destruct (slopes_are D u _ _ _ _ SD HE HD) as (-> & ->).
    destruct Hu as (_ & _ & Hk & Hl). rewrite (Cx k l Hk Hl) in G1. rewrite (Cy k l Hk Hl) in G2. injection G1 as E1. injection G2 as E2. cbn [f_x f_y next] in E1, E2.
    fold (node_x s) (node_y s). rewrite E1, E2. split; assumption.
Qed.

Lemma step_mixed whole (F : flow R) s t f m D M e0 e1 e2 V K u D' M' : proper s -> s_psischeme s = "SuperConsistent"%string -> step_number t -> 0 <= s_dt s -> 0 < K -> V * K * s_dt s <= 1 / 4 ->
  graded_velocity 3 V K F (s_Tp s) -> true_gradients F (s_Tp s) -> smooth2 D -> bounded_in_box s D M ->
  nodes_at (s_nx s) (s_ny s) (node_x s) (node_y s) m -> contains (s_nx s) (s_ny s) f m -> near_samples s D f e0 e1 e2 ->
  let lo := IZR t * s_dt s in let hi := (IZR t + 1) * s_dt s in let E := origin_bound (s_rk3 s) (s_dt s) V K in
  let ex := slope_x_bound (s_dx s) (s_dy s) M e0 e1 e2 in let ey := slope_y_bound (s_dx s) (s_dy s) M e0 e1 e2 in
  solves F (s_Tp s) lo hi u -> (forall x y, u x y lo = D 0%nat 0%nat x y) -> smooth2 D' -> bounded_in_box s D' M' -> (forall x y, u x y hi = D' 0%nat 0%nat x y) ->
  exists m', step whole F s t m = Ok m' /\
    forall i j, (0 < i < s_ny s - 2)%Z -> (0 < j < s_nx s - 2)%Z ->
      deep s (node_x s (j - 1)) (node_y s (i - 1)) (V * s_dt s + E) -> deep s (node_x s (j + 1)) (node_y s (i + 1)) (V * s_dt s + E) ->
      exists v, m' (MPsixy, i, j) = Some (ModelRefMem.D v) /\
        Rabs (v - D' 1%nat 1%nat (node_x s j) (node_y s i)) <= mixed_bound (s_nx s) (s_ny s) i j (s_dx s) (s_dy s) M' (gradient_bound (s_dt s) V K M ex ey E).
Proof.
  intros Hs Hsc Ht Hdt HK HL HV HG SD HM HN Hf Hd lo hi E ex ey HU H0 SD' HM' H1.
  destruct (step_gradient whole F s t f m D M e0 e1 e2 V K u Hs Hsc Ht Hdt HK HL HV HG SD HM HN Hf Hd HU H0) as (m' & Em & H). exists m'. split; [exact Em|].
  intros i j Hi Hj (A1 & A2) (B1 & B2). apply (from_slopes whole F s t f m m' D' M' (fun x y => u x y hi)); try assumption; try lia.
  intros i' j' (Q1 & Q2 & Q3 & Q4). apply (H i' j' Q3 Q4); [right; lia|]. fold E.
  destruct (sorted_x s Hs) as (_ & _ & SX3). destruct (sorted_y s Hs) as (_ & _ & SY3).
  assert (X1 : node_x s (j - 1) <= node_x s j' <= node_x s (j + 1)).
  { split; [destruct (Z.eq_dec (j - 1) j') as [->|]|destruct (Z.eq_dec j' (j + 1)) as [->|]]; try lra; left; apply SX3; lia. }
  assert (Y1 : node_y s (i - 1) <= node_y s i' <= node_y s (i + 1)).
  { split; [destruct (Z.eq_dec (i - 1) i') as [->|]|destruct (Z.eq_dec i' (i + 1)) as [->|]]; try lra; left; apply SY3; lia. }
  unfold deep, inside in *. lra.
Qed.
Lemma step_mixed_vortex whole s t f m D M e0 e1 e2 K u D' M' : proper s -> unit_square s -> s_psischeme s = "SuperConsistent"%string -> s_rk3 s = true -> step_number t -> 0 <= s_dt s ->
  2 * PI <= K -> Rabs (PI / s_Tp s) <= K -> K * s_dt s <= 1 / 4 -> smooth2 D -> bounded_in_box s D M ->
  nodes_at (s_nx s) (s_ny s) (node_x s) (node_y s) m -> contains (s_nx s) (s_ny s) f m -> near_samples s D f e0 e1 e2 ->
  let lo := IZR t * s_dt s in let hi := (IZR t + 1) * s_dt s in
  let E := K ^ 3 * s_dt s ^ 4 * (25 + 3 * K * s_dt s) in
  let ex := slope_x_bound (s_dx s) (s_dy s) M e0 e1 e2 in let ey := slope_y_bound (s_dx s) (s_dy s) M e0 e1 e2 in
  E < s_dx s * (1 - K * s_dt s) -> E < s_dy s * (1 - K * s_dt s) ->
  solves vortex (s_Tp s) lo hi u -> (forall x y, u x y lo = D 0%nat 0%nat x y) -> smooth2 D' -> bounded_in_box s D' M' -> (forall x y, u x y hi = D' 0%nat 0%nat x y) ->
  exists m', step whole vortex s t m = Ok m' /\
    forall i j, (1 < i < s_ny s - 2)%Z -> (1 < j < s_nx s - 2)%Z ->
      exists v, m' (MPsixy, i, j) = Some (ModelRefMem.D v) /\
        Rabs (v - D' 1%nat 1%nat (node_x s j) (node_y s i)) <= mixed_bound (s_nx s) (s_ny s) i j (s_dx s) (s_dy s) M' (gradient_bound3 (s_dt s) 1 K M ex ey E).
Proof.
  intros Hs HS Hsc Hr Ht Hdt HK HTp HL SD HM HN Hf Hd lo hi E ex ey Ex Ey HU H0 SD' HM' H1.
  destruct (step_third_vortex whole s t f m D M e0 e1 e2 K u Hs HS Hsc Hr Ht Hdt HK HTp HL SD HM HN Hf Hd Ex Ey HU H0) as (m' & Em & H). exists m'. split; [exact Em|].
  intros i j Hi Hj. apply (from_slopes whole vortex s t f m m' D' M' (fun x y => u x y hi)); try assumption; try lia.
  intros i' j' (Q1 & Q2 & Q3 & Q4). apply (H i' j'); lia.
Qed.

(** *** examples *)
Definition wide_s : settings R := mkSet 0 1 7 0 1 6 (1 / 32) 1 1 1 2 "SuperConsistent" "RK3".
Definition blown (i j : nat) (x y : R) : R := ripple i j (x - 1 / 32) y.
Lemma still_graded c n K : Rabs c <= 1 -> 0 <= K -> graded_velocity n 1 K (case_flow c 0) 1.
Proof.
  intros Hc HK. assert (Z : forall n V, 0 <= V -> graded3 n V K (fun _ _ _ => 0)).
  { clear n. induction n as [|n IH]; intros V HV; (split; [intros; rewrite Rabs_R0; exact HV|]); [exact I|].
    exists (fun _ _ _ => 0), (fun _ _ _ => 0), (fun _ _ _ => 0). split; [apply (diff3_x (fun _ => _) (fun _ => 0)); intros; apply derivable_pt_lim_const|]. assert (0 <= V * K) by (apply Rmult_le_pos; assumption). auto. }
  split; cbn [Velx Vely case_flow]; [|apply Z; lra]. destruct n as [|n]; (split; [intros; exact Hc|]); [exact I|].
  exists (fun _ _ _ => 0), (fun _ _ _ => 0), (fun _ _ _ => 0). split; [apply (diff3_x (fun _ => _) (fun _ => 0)); intros; apply derivable_pt_lim_const|]. repeat split; apply Z; lra.
Qed.
Lemma blown_smooth : smooth2 blown.
Proof.
  intros i j u v. unfold blown. destruct (ripple_smooth i j (u - 1 / 32) v) as (H1 & H2). split; [|exact H2].
  replace (ripple (S i) j (u - 1 / 32) v) with (ripple (S i) j (u - 1 / 32) v * 1) by ring.
  apply (derivable_pt_lim_comp (fun u => u - 1 / 32) (fun u => ripple i j u v)); [|exact H1].
  eapply ProofsTaylor.d_eq; [apply (derivable_pt_lim_minus (fun u => u) (fun _ => 1 / 32)); [apply derivable_pt_lim_id|apply derivable_pt_lim_const]|ring].
Qed.
Lemma blown_solves Tp lo hi : solves (case_flow 1 0) Tp lo hi (fun x y s => ripple 0 0 (x - s) y).
Proof.
  pose proof (diff3_x (fun x => x) (fun _ => 1) derivable_pt_lim_id) as Dx. pose proof (diff3_s (fun x => x) (fun _ => 1) derivable_pt_lim_id) as Ds.
  pose proof (diff3_y (wave 1 1 0 0) (wave 1 1 0 1) (wave_derive 1 1 0 0)) as Dy.
  pose proof (diff3_mul _ _ _ _ _ _ _ _ (diff3_comp (wave 1 1 0 0) (wave 1 1 0 1) _ _ _ _ (wave_derive 1 1 0 0) (diff3_sub _ _ _ _ _ _ _ _ Dx Ds)) Dy) as D.
  eexists _, _, _. split; [exact D|]. intros x y s _. cbn [case_flow Velx Vely]. ring.
Qed.
Lemma mixed_case : let s := wide_s in let F := case_flow 1 0 in proper s /\ s_psischeme s = "SuperConsistent"%string /\ step_number 0 /\ 0 <= s_dt s /\ 1 * 1 * s_dt s <= 1 / 4 /\
  graded_velocity 3 1 1 F (s_Tp s) /\ true_gradients F (s_Tp s) /\ smooth2 ripple /\ bounded_in_box s ripple (fun _ _ => 1) /\
  (exists m, nodes_at 7 6 (node_x s) (node_y s) m /\ contains 7 6 (offset s) m) /\ near_samples s ripple (offset s) (1 / 1000) 0 0 /\
  let lo := IZR 0 * s_dt s in let hi := (IZR 0 + 1) * s_dt s in let E := origin_bound (s_rk3 s) (s_dt s) 1 1 in let u x y r := ripple 0 0 (x - r) y in
  solves F (s_Tp s) lo hi u /\ (forall x y, u x y lo = ripple 0 0 x y) /\ smooth2 blown /\ bounded_in_box s blown (fun _ _ => 1) /\ (forall x y, u x y hi = blown 0 0 x y) /\
  deep s (node_x s (3 - 1)) (node_y s (2 - 1)) (1 * s_dt s + E) /\ deep s (node_x s (3 + 1)) (node_y s (2 + 1)) (1 * s_dt s + E).
Proof.
  intros s F. split; [unfold proper; cbn [s wide_s s_nx s_ny s_xlim1 s_xlim2 s_ylim1 s_ylim2]; repeat split; try lia; lra|]. split; [reflexivity|]. split; [unfold step_number; lia|].
  split; [cbn; lra|]. split; [cbn; lra|]. split; [apply still_graded; rewrite ?Rabs_R1; lra|]. split; [apply (proj2 (case_flow_ok 1 0 _))|]. split; [apply ripple_smooth|].
  split; [intros i j p q _ _ _ _; apply ripple_bound|]. split; [apply (case_state wide_s (offset wide_s))|]. split; [apply offset_near|]. intros lo hi E u.
  split; [apply blown_solves|]. split; [intros x y; unfold u, lo; f_equal; ring|]. split; [apply blown_smooth|]. split; [intros i j p q _ _ _ _; apply ripple_bound|].
  split; [intros x y; unfold u, blown, hi; cbn [s wide_s s_dt]; f_equal; lra|].
  assert (HE : E < 1 / 100) by (unfold E, origin_bound; change (s_rk3 s) with true; cbn [s s_dt wide_s]; lra). clearbody E.
  assert (ND : s_dx s = 1 / 6 /\ s_dy s = 1 / 5).
  { unfold s_dx, s_dy. cbn [s wide_s s_xlim1 s_xlim2 s_ylim1 s_ylim2 s_nx s_ny]. nr. change (u32 (7 - 1)) with 6%Z. change (u32 (6 - 1)) with 5%Z. split; lra. }
  unfold deep, inside, node_x, node_y, even_nodes. destruct ND as (-> & ->). change (3 - 1)%Z with 2%Z. change (2 - 1)%Z with 1%Z. change (3 + 1)%Z with 4%Z. change (2 + 1)%Z with 3%Z.
  cbn [s wide_s s_xlim1 s_xlim2 s_ylim1 s_ylim2 s_dt]. nr. repeat split; lra.
Qed.
(** the settings of GALS_Advection.cpp and data sampled from the stream function: the error is below a twentieth of the bound 8^2 of the mixed derivative *)
Lemma mixed_vortex_case : let M i j := 8 ^ (i + j) in let E := 8 ^ 3 * s_dt gals_s ^ 4 * (25 + 3 * 8 * s_dt gals_s) in
  mixed_bound 128 128 50 70 (s_dx gals_s) (s_dy gals_s) M
    (gradient_bound3 (s_dt gals_s) 1 8 M (slope_x_bound (s_dx gals_s) (s_dy gals_s) M 0 0 0) (slope_y_bound (s_dx gals_s) (s_dy gals_s) M 0 0 0) E) < 64 / 20.
Proof.
  intros M E.
  assert (ED : s_dx gals_s = 1 / 127 /\ s_dy gals_s = 1 / 127).
  { unfold s_dx, s_dy. cbn [s_xlim1 s_xlim2 s_ylim1 s_ylim2 s_nx s_ny gals_s]. nr. change (u32 (128 - 1)) with 127%Z. split; lra. }
  destruct ED as (-> & ->). unfold mixed_bound. cbn [Z.eqb Pos.eqb Z.sub Z.opp Z.add Z.pos_sub Pos.pred_double orb andb].
  unfold gradient_bound3, slope_x_bound, slope_y_bound, E, M. cbn [s_dt gals_s Nat.add]. lra.
Qed.

(** slopes of sin x sin y with an error of 1/1000 *)
Definition slope_x (l k : R) : R := ripple 1 0 l k + 1 / 1000.
Definition slope_y (l k : R) : R := ripple 0 1 l k - 1 / 1000.
Lemma mixed_data_case : let X := even_nodes (-1) (1 / 2) in let Y := even_nodes 2 (1 / 4) in smooth2 ripple /\ bounded_on (X 0%Z) (X 4%Z) (Y 0%Z) (Y 3%Z) ripple (fun _ _ => 1) /\
  (exists m, holds Psix 4 5 (fun k l => slope_x (X l) (Y k)) m /\ holds Psiy 4 5 (fun k l => slope_y (X l) (Y k)) m /\ present Psixy 4 5 m) /\
  forall k l, Rabs (slope_x (X l) (Y k) - ripple 1 0 (X l) (Y k)) <= 1 / 1000 /\ Rabs (slope_y (X l) (Y k) - ripple 0 1 (X l) (Y k)) <= 1 / 1000.
Proof.
  intros X Y. split; [apply ripple_smooth|]. split; [intros i j p q _ _ _ _; apply ripple_bound|]. split.
  - destruct (case_state case_s (mkFields (fun _ _ => 0) (fun k l => slope_x (X l) (Y k)) (fun k l => slope_y (X l) (Y k)) (fun _ _ => 0))) as (m & _ & H). exists m.
    destruct H as (_ & H1 & H2 & H3 & _). split; [exact H1|]. split; [exact H2|]. intros i j Hi Hj. rewrite (H3 i j Hi Hj). discriminate.
  - intros k l. unfold slope_x, slope_y. split; [replace (_ - _) with (1 / 1000) by ring|replace (_ - _) with (- (1 / 1000)) by ring; rewrite Rabs_Ropp]; rewrite Rabs_pos_eq; lra.
Qed.
