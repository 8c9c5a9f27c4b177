(** The loops and the time step of the reference code, in the form the properties state. *)
From Coq Require Import ZArith List Reals Lra Lia Bool String.
From Verif Require Import Base Num NumB64 ModelVec ModelRefMath ModelRefMem ModelRef SpecRef SpecRefPar SpecRefRun ProofsBase ProofsRefMem ProofsRefPar ProofsRefRun
  ProofsRefUpd ProofsRefMix ProofsRefSearch ProofsRefStep ProofsRefMain ProofsRefReal ProofsRefExact ProofsRefFlows ProofsRefTrace.
Open Scope Z_scope.

Lemma in_rng_in rows lo hi i j : 0 <= i < rows -> lo <= j < hi -> in_rng rows lo hi i j = true.
Proof. intros. unfold in_rng. lia. Qed.
Lemma in_rng_out rows lo hi i j : rows <= i \/ hi <= j -> in_rng rows lo hi i j = false.
Proof. intros. unfold in_rng. lia. Qed.

Lemma search_ok nx ny (x y : Z -> R) x1 x2 y1 y2 xa ya m : 2 <= nx < 4294967296 -> 2 <= ny < 4294967296 ->
  sorted_nodes nx x x1 x2 -> sorted_nodes ny y y1 y2 -> nodes_at nx ny x y m -> holds Xadv ny nx xa m -> holds Yadv ny nx ya m ->
  present Tracker ny nx m -> present Cellx ny nx m -> present Celly ny nx m ->
  exists m', runs (find_advection_point_location_MPI nx ny x1 x2 y1 y2 0 nx) m = Ok m' /\
    only_changes [Tracker; Cellx; Celly] m m' /\
    forall i j, 0 <= i < ny -> 0 <= j < nx -> exists tr, m' (Tracker, i, j) = Some (U tr) /\ tracks x1 x2 y1 y2 (xa i j) (ya i j) tr /\
      (tr <> 4 -> exists cx cy, m' (Cellx, i, j) = Some (U cx) /\ m' (Celly, i, j) = Some (U cy) /\
         cell_around nx x x1 x2 (xa i j) cx /\ cell_around ny y y1 y2 (ya i j) cy) /\
      (tr = 4 -> m' (Cellx, i, j) = m (Cellx, i, j) /\ m' (Celly, i, j) = m (Celly, i, j)).
Proof.
  intros N1 N2 Sx Sy Hn Hx Hy H1 H2 H3.
  destruct (find_loop nx ny x1 x2 y1 y2 x y xa ya 0 nx m ltac:(lia) ltac:(lia) Hn Hx Hy H1 H2 H3 ltac:(lia) ltac:(lia)) as (m' & R' & Hm).
  exists m'. split; [exact R'|]. split.
  - intros a i j Ha. rewrite Hm. destruct (in_rng ny 0 nx i j); destruct a; cbn in Ha; try discriminate; reflexivity.
  - intros i j Hi Hj.
    pose proof (found_spec nx ny x y x1 x2 y1 y2 (xa i j) (ya i j) N1 N2 Sx Sy) as F. cbv zeta in F.
    pose proof (Hm Tracker i j) as E1. pose proof (Hm Cellx i j) as E2. pose proof (Hm Celly i j) as E3.
    rewrite in_rng_in in E1, E2, E3 by lia. cbv beta iota in E1, E2, E3.
    set (r := found _ _ _ _ _ _ _ _ _ _) in *. clearbody r. destruct r as [tr oc]. cbn [fst snd] in *.
    destruct F as (F1 & F2 & F3 & F4 & F5). exists tr. split; [exact E1|]. split.
    + unfold tracks. assert (D : forall lo hi v, inside lo hi v \/ ~ inside lo hi v).
      { intros lo hi v. unfold inside. destruct (Rlt_dec lo v); destruct (Rlt_dec v hi); intuition. }
      destruct (D x1 x2 (xa i j)), (D y1 y2 (ya i j)); tauto.
    + destruct oc as [[cx cy]|]; cbn [fst snd] in *.
      * split; [|intros; tauto]. intros _. exists cx, cy. tauto.
      * split; [intros; tauto|]. auto.
Qed.

(** a position beyond the last corner: the cell set to (0,0) before the search stays *)
Lemma search_corner nx ny (x y : Z -> R) x1 x2 y1 y2 xa ya m i j : 3 <= nx < 4294967296 -> 2 <= ny < 4294967296 ->
  sorted_nodes nx x x1 x2 -> sorted_nodes ny y y1 y2 -> nodes_at nx ny x y m -> holds Xadv ny nx xa m -> holds Yadv ny nx ya m ->
  present Tracker ny nx m -> holdsu Cellx ny nx (fun _ _ => 0) m -> holdsu Celly ny nx (fun _ _ => 0) m ->
  0 <= i < ny -> 0 <= j < nx -> (x2 <= xa i j)%R -> (y2 <= ya i j)%R ->
  exists m', runs (find_advection_point_location_MPI nx ny x1 x2 y1 y2 0 nx) m = Ok m' /\ m' (Cellx, i, j) = Some (U 0) /\
    ~ cell_around nx x x1 x2 (xa i j) 0.
Proof.
  intros N1 N2 Sx Sy Hn Hx Hy H1 H2 H3 Hi Hj Bx By.
  assert (P2 : present Cellx ny nx m) by (intros a b Ha Hb; rewrite H2 by assumption; discriminate).
  assert (P3 : present Celly ny nx m) by (intros a b Ha Hb; rewrite H3 by assumption; discriminate).
  destruct (search_ok nx ny x y x1 x2 y1 y2 xa ya m ltac:(lia) N2 Sx Sy Hn Hx Hy H1 P2 P3) as (m' & R' & _ & H).
  exists m'. split; [exact R'|]. destruct (H i j Hi Hj) as (tr & _ & Ht & _ & H4).
  assert (tr = 4) by (unfold tracks, inside in Ht; decompose [and or] Ht; try assumption; lra).
  destruct (H4 H0) as [E _]. split; [rewrite E; apply H2; assumption|].
  destruct Sx as (S0 & S1 & Sl). intros (_ & _ & _ & B). unfold clamp in B.
  assert (x (0 + 1)%Z < x (nx - 1)%Z)%R by (apply Sl; lia).
  rewrite Rmin_right in B by lra. pose proof (Rmax_r x1 x2). lra.
Qed.

Lemma mixed_data nx ny x0 y0 dx dy a b c (p q : R -> R) m : 2 <= nx < 4294967296 -> 2 <= ny < 4294967296 -> dx <> 0%R -> dy <> 0%R ->
  let X := even_nodes x0 dx in let Y := even_nodes y0 dy in
  holds Psix ny nx (fun k l => p (X l) + a * Y k + 2 * b * X l * Y k + c * Y k ^ 2)%R m ->
  holds Psiy ny nx (fun k l => q (Y k) + a * X l + b * X l ^ 2 + 2 * c * X l * Y k)%R m ->
  present Psixy ny nx m ->
  exists m', runs (update_mixed_derivatives nx ny dx dy 0 nx) (mixed_vars m) = Ok m' /\
    only_changes [Psixy; Dxy1; Dxy2; D1; D2; D3; D4] m m' /\
    holds Psixy ny nx (fun k l => a + 2 * b * X l + 2 * c * Y k)%R m'.
Proof.
  intros N1 N2 Dx Dy X Y H1 H2 H3.
  destruct (mixed_loop nx ny dx dy _ _ 0 nx (mixed_vars m) N1 N2 ltac:(lia) ltac:(lia)
    (fun i j Hi Hj => eq_trans (mixed_vars_other Psix m i j eq_refl) (H1 i j Hi Hj))
    (fun i j Hi Hj => eq_trans (mixed_vars_other Psiy m i j eq_refl) (H2 i j Hi Hj))
    (fun i j Hi Hj => eq_ind_r (fun v => v <> None) (H3 i j Hi Hj) (mixed_vars_other Psixy m i j eq_refl))
    (fun a Ha => mixed_vars_var a m Ha)) as (m' & R' & Hm).
  exists m'. split; [exact R'|]. split.
  - intros e i j He. rewrite Hm by (destruct e; cbn in He |- *; congruence).
    rewrite mixed_vars_other by (destruct e; cbn in He |- *; congruence). destruct (in_rng ny 0 nx i j); destruct e; cbn in He; congruence.
  - intros i j Hi Hj. rewrite Hm by reflexivity. rewrite in_rng_in by lia. f_equal. f_equal. apply (mixed_exact nx ny x0 y0 dx dy a b c p q i j); lia || assumption.
Qed.

(** serial and MPI back tracing *)
Lemma trace_both (F : flow R) rk3 t dt Tp nx ny (x y : Z -> R) m : 1 <= nx < 4294967296 -> 1 <= ny < 4294967296 ->
  nodes_at nx ny x y m -> present Xadv ny nx m -> present Yadv ny nx m ->
  exists m1 m2, runs (advection_point F rk3 t dt Tp nx ny) m = Ok m1 /\ runs (advection_point_MPI F rk3 t dt Tp ny 0 nx) m = Ok m2 /\
    (forall i j, 0 <= i < ny -> 0 <= j < nx ->
      m2 (Xadv, i, j) = Some (D (fst (back_trace F rk3 (x j) (y i) t dt Tp))) /\ m2 (Yadv, i, j) = Some (D (snd (back_trace F rk3 (x j) (y i) t dt Tp))) /\
      (i < ny - 1 -> j < nx - 1 -> m1 (Xadv, i, j) = m2 (Xadv, i, j) /\ m1 (Yadv, i, j) = m2 (Yadv, i, j)) /\
      (i = ny - 1 \/ j = nx - 1 -> m1 (Xadv, i, j) = m (Xadv, i, j) /\ m1 (Yadv, i, j) = m (Yadv, i, j))) /\
    only_changes [Xadv; Yadv] m m1 /\ only_changes [Xadv; Yadv] m m2.
Proof.
  intros N1 N2 Hn H1 H2.
  destruct (adv_loop F rk3 t dt Tp nx ny x y (u32 (ny - 1)) 0 (u32 (nx - 1)) m Hn H1 H2) as (m1 & R1 & E1); [lia|rewrite u32_small; lia|rewrite u32_small; lia|].
  destruct (adv_loop F rk3 t dt Tp nx ny x y ny 0 nx m Hn H1 H2) as (m2 & R2 & E2); [lia|lia|lia|].
  rewrite !u32_small in E1 by lia.
  exists m1, m2. split; [exact R1|]. split; [exact R2|]. split; [|split].
  - intros i j Hi Hj. rewrite (E2 Xadv), (E2 Yadv), (E1 Xadv), (E1 Yadv). rewrite (in_rng_in ny 0 nx i j) by lia.
    split; [reflexivity|]. split; [reflexivity|]. split.
    + intros. rewrite in_rng_in by lia. auto.
    + intros. rewrite in_rng_out by lia. auto.
  - intros a i j Ha. rewrite E1. destruct a; cbn in Ha; congruence.
  - intros a i j Ha. rewrite E2. destruct a; cbn in Ha; congruence.
Qed.

Lemma trace_vortex (s : settings R) t m i : proper s -> unit_square s -> nodes_at (s_nx s) (s_ny s) (node_x s) (node_y s) m ->
  holds Xadv (s_ny s) (s_nx s) (fun _ _ => 0%R) m -> holds Yadv (s_ny s) (s_nx s) (fun _ _ => 0%R) m -> 0 <= i < s_ny s ->
  exists m1 m2, runs (advection_point vortex (s_rk3 s) t (s_dt s) (s_Tp s) (s_nx s) (s_ny s)) m = Ok m1 /\
    runs (advection_point_MPI vortex (s_rk3 s) t (s_dt s) (s_Tp s) (s_ny s) 0 (s_nx s)) m = Ok m2 /\
    m1 (Xadv, i, s_nx s - 1) = Some (D 0%R) /\ m2 (Xadv, i, s_nx s - 1) = Some (D 1%R).
Proof.
  intros P Us Hn H1 H2 Hi. pose proof P as (N1 & N2 & _).
  destruct (trace_both vortex (s_rk3 s) t (s_dt s) (s_Tp s) (s_nx s) (s_ny s) (node_x s) (node_y s) m) as (m1 & m2 & R1 & R2 & H & _); [lia|lia|exact Hn| | |].
  - intros a b Ha Hb. rewrite H1 by assumption. discriminate.
  - intros a b Ha Hb. rewrite H2 by assumption. discriminate.
  - exists m1, m2. split; [exact R1|]. split; [exact R2|]. destruct (H i (s_nx s - 1) Hi ltac:(lia)) as (E2 & _ & _ & E1).
    destruct (E1 (or_intror eq_refl)) as [E _]. rewrite E, H1 by lia. split; [reflexivity|]. rewrite E2.
    rewrite rest_trace; [|apply (wall_rests s i (s_nx s - 1)); auto; lia].
    cbn [fst]. destruct (sorted_x s P) as (_ & S1 & _). rewrite S1. destruct Us as (_ & -> & _). reflexivity.
Qed.

(** k steps *)
Lemma steps_after whole (F : flow R) (s : settings R) k f m : proper s ->
  nodes_at (s_nx s) (s_ny s) (node_x s) (node_y s) m -> contains (s_nx s) (s_ny s) f m ->
  exists m', steps whole F s k m = Ok m' /\ nodes_at (s_nx s) (s_ny s) (node_x s) (node_y s) m' /\
    contains (s_nx s) (s_ny s) (after whole F s (node_x s) (node_y s) k f) m'.
Proof.
  intros (N1 & N2 & Bx & By) Hn Hc. induction k as [|k (m1 & R1 & Hn1 & Hc1)]; cbn [steps after].
  - exists m. auto.
  - rewrite R1. cbn [bind]. destruct (step_R whole F s (Z.of_nat k) _ m1 N1 N2 Bx By Hn1 Hc1) as (m2 & R2 & Hn2 & Hc2 & _). exists m2. auto.
Qed.
Lemma steps_plane (F : flow R) s a b c u v k m : proper s ->
  velocity_is F (s_Tp s) (fun _ _ _ => u) (fun _ _ _ => v) -> true_gradients F (s_Tp s) ->
  nodes_at (s_nx s) (s_ny s) (node_x s) (node_y s) m -> contains (s_nx s) (s_ny s) (plane (node_x s) (node_y s) a b c) m ->
  exists m', steps true F s k m = Ok m' /\
    contains (s_nx s) (s_ny s) (plane (node_x s) (node_y s) (a - b * (u * (INR k * s_dt s)) - c * (v * (INR k * s_dt s)))%R b c) m'.
Proof.
  intros P V G Hn Hc. destruct (steps_after true F s k _ m P Hn Hc) as (m' & R' & _ & H). exists m'. split; [exact R'|].
  eapply contains_agree; [|exact H]. apply after_plane; auto. eapply flat_of_true; eauto.
Qed.
Lemma steps_wall whole s k f m i j : proper s -> unit_square s ->
  nodes_at (s_nx s) (s_ny s) (node_x s) (node_y s) m -> contains (s_nx s) (s_ny s) f m ->
  0 <= i < s_ny s -> 0 <= j < s_nx s -> (i = 0 \/ i = s_ny s - 1 \/ j = 0 \/ j = s_nx s - 1) ->
  exists m', steps whole vortex s k m = Ok m' /\ m' (MPhi, i, j) = m (MPhi, i, j) /\ m' (MPsix, i, j) = m (MPsix, i, j) /\ m' (MPsiy, i, j) = m (MPsiy, i, j).
Proof.
  intros P Us Hn Hc Hi Hj Hb. destruct (steps_after whole vortex s k f m P Hn Hc) as (m' & R' & _ & H). exists m'. split; [exact R'|].
  destruct (after_wall whole s k f i j P Us Hi Hj Hb) as (E1 & E2 & E3).
  destruct H as (_ & _ & _ & _ & A1 & A2 & A3 & _). destruct Hc as (_ & _ & _ & _ & B1 & B2 & B3 & _).
  rewrite (A1 i j Hi Hj), (A2 i j Hi Hj), (A3 i j Hi Hj), (B1 i j Hi Hj), (B2 i j Hi Hj), (B3 i j Hi Hj), E1, E2, E3. auto.
Qed.
Lemma steps_same s k f m : proper s -> unit_square s ->
  nodes_at (s_nx s) (s_ny s) (node_x s) (node_y s) m -> contains (s_nx s) (s_ny s) f m ->
  exists m1 m2 g, steps false vortex s k m = Ok m1 /\ steps true vortex s k m = Ok m2 /\
    contains (s_nx s) (s_ny s) g m1 /\ contains (s_nx s) (s_ny s) g m2.
Proof.
  intros P Us Hn Hc. destruct (steps_after false vortex s k f m P Hn Hc) as (m1 & R1 & _ & H1). destruct (steps_after true vortex s k f m P Hn Hc) as (m2 & R2 & _ & H2).
  exists m1, m2. eexists. split; [exact R1|]. split; [exact R2|]. split; [|exact H2]. eapply contains_agree; [|exact H1]. apply after_same; assumption.
Qed.
Lemma step_rest whole (F : flow R) s t f m i j : proper s ->
  velocity_is F (s_Tp s) (fun _ _ _ => 0%R) (fun _ _ _ => 0%R) -> true_gradients F (s_Tp s) ->
  nodes_at (s_nx s) (s_ny s) (node_x s) (node_y s) m -> contains (s_nx s) (s_ny s) f m ->
  0 <= i < s_ny s -> 0 <= j < s_nx s -> whole = true \/ (i < s_ny s - 1 /\ j < s_nx s - 1) ->
  exists m', step whole F s t m = Ok m' /\ m' (MPhi, i, j) = m (MPhi, i, j) /\ m' (MPsix, i, j) = m (MPsix, i, j) /\ m' (MPsiy, i, j) = m (MPsiy, i, j).
Proof.
  intros P V G Hn Hc Hi Hj Hb. destruct P as (N1 & N2 & Bx & By).
  destruct (step_R whole F s t f m N1 N2 Bx By Hn Hc) as (m' & R' & _ & H & _). exists m'. split; [exact R'|].
  destruct (next_rest whole F s t f i j) as (E1 & E2 & E3); auto; [repeat split; tauto|destruct whole; cbn; [reflexivity|lia]|eapply flat_of_true; eauto|].
  change (xs_of s) with (node_x s) in H. change (ys_of s) with (node_y s) in H.
  destruct H as (_ & _ & _ & _ & A1 & A2 & A3 & _). destruct Hc as (_ & _ & _ & _ & B1 & B2 & B3 & _).
  rewrite (A1 i j Hi Hj), (A2 i j Hi Hj), (A3 i j Hi Hj), (B1 i j Hi Hj), (B2 i j Hi Hj), (B3 i j Hi Hj), E1, E2, E3. auto.
Qed.
Lemma step_origin (F : flow R) s t a b c m : proper s -> (s_xlim1 s < 0 < s_xlim2 s)%R -> (s_ylim1 s < 0 < s_ylim2 s)%R ->
  nodes_at (s_nx s) (s_ny s) (node_x s) (node_y s) m -> contains (s_nx s) (s_ny s) (plane (node_x s) (node_y s) a b c) m ->
  exists m', step false F s t m = Ok m' /\
    forall i j, 0 <= i < s_ny s -> 0 <= j < s_nx s -> i = s_ny s - 1 \/ j = s_nx s - 1 -> m' (MPhi, i, j) = Some (D a).
Proof.
  intros P X0 Y0 Hn Hc. pose proof P as (N1 & N2 & Bx & By).
  destruct (step_R false F s t _ m N1 N2 Bx By Hn Hc) as (m' & R' & _ & H & _). exists m'. split; [exact R'|].
  intros i j Hi Hj Hb. destruct H as (_ & _ & _ & _ & A1 & _). rewrite (A1 i j Hi Hj). f_equal. f_equal. apply origin_plane; auto.
Qed.

(** one step at a node whose position is strictly inside the box *)
Lemma step_inside whole (F : flow R) s t f m : proper s ->
  nodes_at (s_nx s) (s_ny s) (node_x s) (node_y s) m -> contains (s_nx s) (s_ny s) f m ->
  exists m', step whole F s t m = Ok m' /\
    forall i j, 0 <= i < s_ny s -> 0 <= j < s_nx s -> whole = true \/ (i < s_ny s - 1 /\ j < s_nx s - 1) ->
      let p := back_trace F (s_rk3 s) (node_x s j) (node_y s i) t (s_dt s) (s_Tp s) in
      inside (s_xlim1 s) (s_xlim2 s) (fst p) -> inside (s_ylim1 s) (s_ylim2 s) (snd p) ->
      exists cx cy, cell_around (s_nx s) (node_x s) (s_xlim1 s) (s_xlim2 s) (fst p) cx /\
        cell_around (s_ny s) (node_y s) (s_ylim1 s) (s_ylim2 s) (snd p) cy /\
        let H (g : quad R -> quad R -> quad R -> quad R -> R -> R -> R -> R -> R -> R -> R) :=
          g (quad_at (SpecRefRun.f_phi f) cy cx) (quad_at (f_x f) cy cx) (quad_at (f_y f) cy cx) (quad_at (f_xy f) cy cx)
            (fst p) (snd p) (node_x s cx) (node_y s cy) (s_dx s) (s_dy s) in
        m' (MPhi, i, j) = Some (D (H hp)) /\
        (s_psischeme s = "SuperConsistent"%string ->
          let r := SuperConsistentScheme F (s_rk3 s) (node_x s j) (node_y s i) (H hermx) (H hermy) t (s_dt s) (s_Tp s) in
          m' (MPsix, i, j) = Some (D (fst r)) /\ m' (MPsiy, i, j) = Some (D (snd r))) /\
        (s_psischeme s = "Heuns"%string ->
          let r := Heuns_internal F (node_x s j) (node_y s i) (fst p) (snd p) (H hermx) (H hermy) t (s_dt s) (s_Tp s) in
          m' (MPsix, i, j) = Some (D (fst r)) /\ m' (MPsiy, i, j) = Some (D (snd r))).
Proof.
  intros P Hn Hc. pose proof P as (N1 & N2 & Bx & By).
  destruct (step_R whole F s t f m N1 N2 Bx By Hn Hc) as (m' & R' & _ & H & _). exists m'. split; [exact R'|].
  intros i j Hi Hj Hb p Ix Iy.
  change (xs_of s) with (node_x s) in H. change (ys_of s) with (node_y s) in H.
  destruct H as (_ & _ & _ & _ & A1 & A2 & A3 & _).
  pose proof (where_cases whole F s t i j P) as W. cbv zeta in W.
  assert (Ef : foot whole F s (node_x s) (node_y s) t i j = p).
  { unfold foot. replace (whole || ((i <? s_ny s - 1) && (j <? s_nx s - 1)))%bool with true by (destruct whole; cbn; lia). reflexivity. }
  rewrite Ef in W.
  rewrite (A1 i j Hi Hj), (A2 i j Hi Hj), (A3 i j Hi Hj). unfold next. cbn [SpecRefRun.f_phi f_x f_y f_xy]. unfold new_node. rewrite Ef.
  set (w := where_ _ _ _ _ _ _ _ _) in *. clearbody w. destruct w as [tr [cx cy]]. cbn [fst snd] in *.
  destruct W as [Wt Wc]. assert (tr = 1) by tauto. subst tr. destruct (Wc ltac:(lia)) as [Cx Cy].
  exists cx, cy. split; [exact Cx|]. split; [exact Cy|]. rewrite diff_x, diff_y.
  split; [reflexivity|]. split; intros ->; split; reflexivity.
Qed.
