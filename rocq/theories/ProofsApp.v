From Coq Require Import ZArith List String Reals Lra Lia.
From Verif Require Import Base Num NumB64 ModelVec ModelGrid ModelArray ModelInterp ModelGradient ModelTemporal
  ModelAnalytic ModelParser ModelOutput ModelFiles ModelApp SpecGrid SpecInterp SpecTemporal SpecAnalytic SpecApp
  ProofsBase ProofsGrid ProofsArray ProofsGridProps ProofsInterpApi ProofsLoops ProofsGradientOob ProofsTemporal ProofsAnalytic.
Open Scope R_scope.

(** *** the loop over the reals *)
Lemma stop_R t e : stop_test t e = true <-> e - / 10000000000 <= t.
Proof.
  unfold stop_test, is_equal. cbn [nleb nltb nsub NumR]. rewrite Bool.orb_true_iff, nabs_R, VSMALL_R.
  unfold Rleb, Rltb. destruct (Rle_dec _ _) as [H|H]; destruct (Rlt_dec _ _) as [K|K].
  - split; auto. intros _. lra.
  - split; auto. intros _. unfold Rabs in H. destruct (Rcase_abs _); lra.
  - split; auto. intros _. lra.
  - split; [intros [|]; discriminate|]. intros L. exfalso. apply H. unfold Rabs. destruct (Rcase_abs _); lra.
Qed.

Lemma least_nat (P : nat -> Prop) : (forall n, P n \/ ~ P n) -> (exists n, P n) -> exists n, P n /\ forall m, P m -> (n <= m)%nat.
Proof.
  intros D (n & H). revert H. induction n as [n IH] using lt_wf_ind. intros H.
  destruct (Classical_Prop.classic (exists m, P m /\ (m < n)%nat)) as [(m & Hm & L)|N].
  - apply (IH m); auto.
  - exists n. split; auto. intros m Hm. destruct (le_lt_dec n m); auto. exfalso. apply N. exists m. auto.
Qed.
Lemma first_exists dt e : 0 < dt -> exists N, first_reaching dt e N.
Proof.
  intros H. apply (least_nat (reaches dt e)).
  - intros n. apply Classical_Prop.classic.
  - destruct (archimed (e / dt)) as [A _]. exists (Z.to_nat (Z.max 1 (up (e / dt)))). split; [lia|].
    assert (B : IZR (up (e / dt)) <= INR (Z.to_nat (Z.max 1 (up (e / dt))))).
    { rewrite INR_IZR_INZ. apply IZR_le. lia. }
    assert (C : e = e / dt * dt) by (field; lra).
    assert (D : e / dt * dt <= INR (Z.to_nat (Z.max 1 (up (e / dt)))) * dt) by (apply Rmult_le_compat_r; lra). lra.
Qed.

Lemma loop_from {S} (body : R -> S -> outcome S) dt e N : first_reaching dt e N ->
  forall m k fuel s, N = (k + Datatypes.S m)%nat -> (m < fuel)%nat ->
  time_loop fuel body dt e (INR k * dt) (Z.of_nat k) s =
  Some (bind (run_from body dt k (Datatypes.S m) s) (fun s' => Ok (INR N * dt, Z.of_nat N, s'))).
Proof.
  intros HN. induction m as [|m IH]; intros k fuel s Hk Hf; (destruct fuel as [|fuel]; [lia|]); cbn [time_loop run_from].
  - cbn [nadd NumR]. replace (INR k * dt + dt) with (INR (Datatypes.S k) * dt) by (rewrite S_INR; ring).
    destruct (body (INR (Datatypes.S k) * dt) s) as [s'| | |]; cbn [bind]; auto.
    replace (Datatypes.S k) with N by lia. rewrite (proj2 (stop_R _ _)); [|apply HN].
    replace (Z.of_nat k + 1)%Z with (Z.of_nat N) by lia. reflexivity.
  - cbn [nadd NumR]. replace (INR k * dt + dt) with (INR (Datatypes.S k) * dt) by (rewrite S_INR; ring).
    destruct (body (INR (Datatypes.S k) * dt) s) as [s'| | |]; cbn [bind]; auto.
    destruct (stop_test _ _) eqn:E.
    + exfalso. apply stop_R in E. assert (L : (N <= Datatypes.S k)%nat); [|lia]. apply HN. split; [lia|exact E].
    + replace (Z.of_nat k + 1)%Z with (Z.of_nat (Datatypes.S k)) by lia. rewrite IH by lia. reflexivity.
Qed.

Lemma loop_R {S} (body : R -> S -> outcome S) dt e : 0 < dt -> exists N, first_reaching dt e N /\
  forall fuel s, (N <= fuel)%nat -> time_loop fuel body dt e 0 0 s =
    Some (bind (run_from body dt 0 N s) (fun s' => Ok (INR N * dt, Z.of_nat N, s'))).
Proof.
  intros H. destruct (first_exists dt e H) as (N & HN). exists N. split; auto. intros fuel s Hf.
  destruct N as [|m]; [destruct HN as ((L & _) & _); lia|].
  rewrite <- (loop_from body dt e (Datatypes.S m) HN m 0 fuel s) by lia. cbn [INR Z.of_nat]. rewrite Rmult_0_l. reflexivity.
Qed.

Lemma app_terminates ov bt fs g pos s ti : if_time fs = Some ti -> 0 < app_dt g ti ->
  exists N, first_reaching (app_dt g ti) (ti_end ti) N /\ forall fuel, (N <= fuel)%nat ->
    app_loop fuel ov bt fs g pos s =
    Some (bind (run_from (app_iteration ov bt g (if_vel fs) pos (app_dt g ti)) (app_dt g ti) 0 N s)
               (fun s' => Ok (INR N * app_dt g ti, Z.of_nat N, s'))).
Proof.
  intros Ht Hd. destruct (loop_R (app_iteration ov bt g (if_vel fs) pos (app_dt g ti)) (app_dt g ti) (ti_end ti) Hd) as (N & HN & K).
  exists N. split; auto. intros fuel Hf. unfold app_loop. rewrite Ht. cbn [nofZ NumR]. apply K. exact Hf.
Qed.

Lemma loop_nonpositive {S} (body : R -> S -> outcome S) dt e : dt <= 0 -> / 10000000000 < e -> total_body body ->
  forall fuel t c s, t <= 0 -> time_loop fuel body dt e t c s = None.
Proof.
  intros Hd He Hb. induction fuel as [|fuel IH]; intros t c s Ht; cbn [time_loop]; auto.
  destruct (Hb (t + dt)%num s) as (s' & ->). destruct (stop_test _ _) eqn:E.
  - apply stop_R in E. cbn [nadd NumR] in E. lra.
  - apply IH. cbn [nadd NumR]. lra.
Qed.

(** *** the time step *)
Lemma half_R : (half : R) = / 2.
Proof. unfold half. cbn [ndiv nofZ NumR]. lra. Qed.
Lemma vmin_R (v : vec3 R) : vx v <> vy v \/ vz v <= vx v -> forall a, vmin v <= vget v a.
Proof.
  intros H. unfold vmin. cbn [nltb NumR]. unfold Rltb.
  repeat destruct (Rlt_dec _ _); cbn [andb]; intros []; cbn [vget]; destruct H; lra.
Qed.
Lemma vmin_tie (v : vec3 R) : vx v = vy v -> vx v < vz v -> vmin v = vz v.
Proof.
  intros H K. unfold vmin. cbn [nltb NumR]. unfold Rltb. rewrite H in *.
  repeat destruct (Rlt_dec _ _); cbn [andb]; lra.
Qed.
Lemma built_dx ov dim n pad bmin bmax (g : grid R) : built ov dim n pad bmin bmax g ->
  forall a, vget (g_dx g) a = spacing (vget bmin a) (vget bmax a) (vget n a).
Proof. intros Hb a. rewrite (bf_dx _ _ _ _ _ _ _ (built_ok _ _ _ _ _ _ _ Hb)). destruct a; reflexivity. Qed.

Lemma cfl_ok ov dim n pad bmin bmax (g : grid R) ti : built ov dim n pad bmin bmax g -> ti_constant_dt ti = "NO"%string ->
  let h a := spacing (vget bmin a) (vget bmax a) (vget n a) in
  h AX <> h AY \/ h AZ <= h AX -> forall a, app_dt g ti <= h a / 2.
Proof.
  intros Hb Hc h H a. unfold app_dt. rewrite Hc. cbn [String.eqb Ascii.eqb Bool.eqb negb]. rewrite half_R. cbn [nmul NumR].
  pose proof (vmin_R (g_dx g)) as K. change (vx (g_dx g)) with (vget (g_dx g) AX) in K. change (vy (g_dx g)) with (vget (g_dx g) AY) in K.
  change (vz (g_dx g)) with (vget (g_dx g) AZ) in K. rewrite !(built_dx _ _ _ _ _ _ _ Hb) in K. specialize (K H a).
  rewrite (built_dx _ _ _ _ _ _ _ Hb) in K. fold (h a) in K. lra.
Qed.
Lemma cfl_tie ov dim n pad bmin bmax (g : grid R) ti : built ov dim n pad bmin bmax g -> ti_constant_dt ti = "NO"%string ->
  let h a := spacing (vget bmin a) (vget bmax a) (vget n a) in
  h AX = h AY -> h AX < h AZ -> app_dt g ti = h AZ / 2 /\ h AX / 2 < app_dt g ti.
Proof.
  intros Hb Hc h H1 H2. unfold app_dt. rewrite Hc. cbn [String.eqb Ascii.eqb Bool.eqb negb]. rewrite half_R. cbn [nmul NumR].
  rewrite vmin_tie.
  - change (vz (g_dx g)) with (vget (g_dx g) AZ). rewrite (built_dx _ _ _ _ _ _ _ Hb). fold (h AZ). lra.
  - change (vx (g_dx g)) with (vget (g_dx g) AX). change (vy (g_dx g)) with (vget (g_dx g) AY). rewrite !(built_dx _ _ _ _ _ _ _ Hb). exact H1.
  - change (vx (g_dx g)) with (vget (g_dx g) AX). change (vz (g_dx g)) with (vget (g_dx g) AZ). rewrite !(built_dx _ _ _ _ _ _ _ Hb). exact H2.
Qed.

(** *** start *)
Section Generic.
Context {T : Type} {NT : Num T} {TT : Trans T}.
Lemma start_ignored fuel ov bt (fs : input_fields T) g pos s ti start : if_time fs = Some ti ->
  app_loop fuel ov bt (mkIF (if_general fs) (if_grid fs) (Some (mkTI start (ti_end ti) (ti_dt ti) (ti_constant_dt ti))) (if_vel fs) (if_ls fs)) g pos s =
  app_loop fuel ov bt fs g pos s.
Proof. intros H. unfold app_loop. rewrite H. reflexivity. Qed.

(** *** set-up and first iteration *)
Lemma pad1_ctor ov n (bmin bmax : vec3 T) :
  (g0 <- grid_ctor ov 2 (vx n) (vy n) (vz n) ;; generate ov g0 bmin bmax) = make_grid ov 2 n 1 bmin bmax.
Proof.
  unfold make_grid, grid_ctor. destruct (imul ov (vx n) (vy n)) as [p| | |]; cbn [bind]; auto.
  destruct (imul ov p (vz n)) as [q| | |]; cbn [bind]; reflexivity.
Qed.

Open Scope Z_scope.
Lemma positions_ok ov n bmin bmax (g : grid T) : built ov 2 n 1 bmin bmax g ->
  exists pos, app_positions ov g = Ok pos /\ array_on g pos /\
    forall i j k, padded_cell 2 n 1 (i, j, k) -> exists p, node ov g i j k = Ok p /\ aget ov g pos i j k = Ok p.
Proof.
  intros Hb. pose proof (built_ok _ _ _ _ _ _ _ Hb) as F. pose proof (bf_ok _ _ _ _ _ _ _ F) as Hg.
  pose proof (fun a => array_on_shaped (A := vec3 T) _ _ _ _ _ _ _ a Hb) as K.
  assert (HN : forall i j k, gcell g (i, j, k) -> node ov g i j k = Ok (pos_at 2 n 1 bmin bmax (i, j, k))).
  { intros i j k HC. unfold node. rewrite index_ok; [|apply Hg|apply Hg|apply padded_cell_for; auto]. apply (bf_pos _ _ _ _ _ _ _ F). exact HC. }
  unfold app_positions.
  set (cs := cells3 _ _ _).
  assert (Hin : forall c, In c cs <-> gcell g c).
  { intros [[i j] k]. subst cs. rewrite (built_gcell _ _ _ _ _ _ _ _ Hb). rewrite in_cells3, !in_range.
    unfold num_cells. rewrite (bf_dim _ _ _ _ _ _ _ F), (bf_n _ _ _ _ _ _ _ F), (bf_pad _ _ _ _ _ _ _ F).
    cbn [mask vx vy vz]. destruct Hb as ((_ & _ & Hn & _) & _). pose proof (Hn AZ) as Hz. cbn [used Nat.leb vget] in Hz.
    split.
    - intros H []; cbn [used Nat.leb ccoord vget]; lia.
    - intros H. pose proof (H AX) as X; pose proof (H AY) as Y; pose proof (H AZ) as Z0. cbn [used Nat.leb ccoord vget] in X, Y, Z0. lia. }
  assert (S0 : shaped g (array_ctor g (vzero : vec3 T))) by (apply (array_ctor_shaped ov); auto; apply (bf_len _ _ _ _ _ _ _ F)).
  destruct (loop_cells ov g (fun c _ => pos_at 2 n 1 bmin bmax c)
     (fun a c => match c with (i, j, k) => x <- node ov g i j k ;; aset ov g a i j k x end) cs (array_ctor g vzero))
    as (a' & E & S' & _ & H1 & H2); auto.
  - apply nodup_cells3; apply nodup_range.
  - intros c Hc. apply Hin. exact Hc.
  - intros s [[i j] k] x Hs' _ Hc Hx. apply Hin in Hc. rewrite HN by auto. cbn [bind]. apply aset_poke; auto.
  - exists a'. split; [exact E|]. split; [apply K; exact S'|].
    intros i j k Hp. assert (HC : gcell g (i, j, k)) by (apply (built_gcell _ _ _ _ _ _ _ _ Hb); auto).
    exists (pos_at 2 n 1 bmin bmax (i, j, k)). split; [apply HN; auto|]. rewrite (aget_peek_c ov) by auto.
    destruct (peek_ok ov g (array_ctor g (vzero : vec3 T)) (i, j, k)) as (x & Ex); auto.
    rewrite (H1 (i, j, k) x); auto. apply Hin. exact HC.
Qed.

Lemma ctor_on ov n bmin bmax (g : grid T) : built ov 2 n 1 bmin bmax g ->
  levelset_on g (levelset_ctor g) /\ velocity_on g (ls_velocity_ctor g).
Proof.
  intros Hb. pose proof (built_ok _ _ _ _ _ _ _ Hb) as F. pose proof (bf_ok _ _ _ _ _ _ _ F) as Hg.
  assert (K : forall A (d : A), array_on g (array_ctor g d)).
  { intros A d. apply (array_on_shaped _ _ _ _ _ _ _ _ Hb). apply (array_ctor_shaped ov); auto. apply (bf_len _ _ _ _ _ _ _ F). }
  split; [|split; apply K]. constructor; try apply K.
  cbn [levelset_ctor ls_mix_prev array_ctor a_data]. apply Forall_forall. intros x Hx. apply repeat_spec in Hx. subst x.
  rewrite (bf_dim _ _ _ _ _ _ _ F). reflexivity.
Qed.

(** everything before the loop is defined; afterwards the positions and the level set are as requested *)
Lemma setup_ok ov (fs : input_fields T) gi : if_grid fs = Some gi -> usable_grid ov gi ->
  exists g pos s, app_setup ov fs = Ok (g, pos, s) /\ built ov 2 (gi_n gi) 1 (gi_min gi) (gi_max gi) g /\ array_on g pos /\
    (forall i j k, padded_cell 2 (gi_n gi) 1 (i, j, k) -> exists p, node ov g i j k = Ok p /\ aget ov g pos i j k = Ok p) /\
    ap_vel s = ls_velocity_ctor g /\ ap_map s = vel_map0 /\ levelset_on g (ap_ls s) /\
    (forall li, if_ls fs = Some li -> li_name li = "CIRCLE"%string -> forall i j k, interior_cell (gi_n gi) (i, j, k) ->
       exists p, node ov g i j k = Ok p /\ aget ov g (ls_phi (ap_ls s)) i j k = Ok (vmag (vsub p (li_center li)) - li_radius li)%num) /\
    ((forall li, if_ls fs = Some li -> li_name li <> "CIRCLE"%string) -> ap_ls s = levelset_ctor g).
Proof.
  intros Hgi (H1 & H2). destruct (built_exists ov 2 (gi_n gi) 1 (gi_min gi) (gi_max gi) H1 H2) as (g & Hb).
  destruct (positions_ok _ _ _ _ _ Hb) as (pos & Ep & Hp & Hpos). destruct (ctor_on _ _ _ _ _ Hb) as (Hl & Hv).
  unfold app_setup. rewrite Hgi. pose proof (pad1_ctor ov (gi_n gi) (gi_min gi) (gi_max gi)) as E.
  destruct Hb as (A1 & A2 & A3). rewrite A3 in E.
  destruct (grid_ctor ov 2 (vx (gi_n gi)) (vy (gi_n gi)) (vz (gi_n gi))) as [g0| | |] eqn:E0; cbn [bind] in *; try discriminate.
  rewrite E. cbn [bind]. rewrite Ep. cbn [bind]. assert (Hb : built ov 2 (gi_n gi) 1 (gi_min gi) (gi_max gi) g) by (split; auto).
  assert (U : forall li, li_name li <> "CIRCLE"%string -> exists m', als_compute ov g ls_map0 li pos (levelset_ctor g) = Ok (levelset_ctor g, m')).
  { intros li Hne. exact (unknown_levelset ov g [] li pos (levelset_ctor g) Hne). }
  destruct (if_ls fs) as [li|].
  - destruct (string_dec (li_name li) "CIRCLE") as [Hc|Hc].
    + destruct (circle_ok ov 2 (gi_n gi) 1 (gi_min gi) (gi_max gi) g [] li pos (levelset_ctor g) Hb Hl Hp Hc) as (l' & m' & El & O & Hi).
      cbn [after_lookups fold_left] in El. rewrite El. cbn [bind fst]. exists g, pos, (mkApp (ls_velocity_ctor g) l' vel_map0).
      split; [reflexivity|]. split; [exact Hb|]. split; [exact Hp|]. split; [exact Hpos|]. cbn [ap_vel ap_map ap_ls].
      split; [reflexivity|]. split; [reflexivity|]. split.
      { destruct O as [(o1 & o2 & o3) (o4 & o5 & o6 & o7) o8 _]. destruct Hl.
        constructor; rewrite ?o1, ?o2, ?o3, ?o4, ?o5, ?o6, ?o7; auto. }
      split.
      * intros li' Hli Hn i j k Hijk. injection Hli as <-. destruct (Hi i j k Hijk) as (p & P1 & P2).
        destruct (Hpos i j k) as (q & Q1 & Q2). { eapply interior_padded; [apply Hb|exact Hijk]. }
        rewrite P1 in Q2. injection Q2 as <-. exists p. auto.
      * intros Hno. exfalso. exact (Hno li eq_refl Hc).
    + destruct (U li Hc) as (m' & ->). cbn [bind fst]. exists g, pos, (mkApp (ls_velocity_ctor g) (levelset_ctor g) vel_map0).
      split; [reflexivity|]. split; [exact Hb|]. split; [exact Hp|]. split; [exact Hpos|]. cbn [ap_vel ap_map ap_ls].
      split; [reflexivity|]. split; [reflexivity|]. split; [exact Hl|]. split; [|reflexivity].
      intros li' Hli Hn. injection Hli as <-. contradiction.
  - destruct (U (mkLSI EmptyString vzero (nofZ 0) EmptyString)) as (m' & ->); [discriminate|]. cbn [bind fst].
    exists g, pos, (mkApp (ls_velocity_ctor g) (levelset_ctor g) vel_map0).
    split; [reflexivity|]. split; [exact Hb|]. split; [exact Hp|]. split; [exact Hpos|]. cbn [ap_vel ap_map ap_ls].
    split; [reflexivity|]. split; [reflexivity|]. split; [exact Hl|]. split; [|reflexivity]. intros li' Hli. discriminate.
Qed.

Lemma velocity_first ov n bmin bmax (g : grid T) vi pos t lv : built ov 2 n 1 bmin bmax g -> array_on g pos -> velocity_on g lv ->
  (exists r, av_compute ov true g vel_map0 vi pos t lv = Ok r) \/ av_compute ov true g vel_map0 vi pos t lv = UB OutOfBounds.
Proof.
  intros Hb Hp Hv. destruct (string_dec (vi_name vi) "CIRCULAR") as [Hc|Hc].
  2:{ left. destruct (unknown_velocity ov true g [] vi pos t lv Hc) as (m' & E). exists (lv, m'). exact E. }
  destruct (vi_center vi) as [|c0 [|c1 rest]] eqn:Ec.
  3:{ left. destruct (circular_ok ov 2 n 1 bmin bmax g [] vi pos t lv c0 c1 rest Hb) as (lv' & m' & E & _); auto; try lia. exists (lv', m'). exact E. }
  all: right; pose proof (built_ok _ _ _ _ _ _ _ Hb) as F; pose proof (bf_ok _ _ _ _ _ _ _ F) as Hg;
    destruct (first_interior ov g Hg) as (Hi & r & Er);
    assert (Sp : shaped g pos) by (apply (array_on_shaped _ _ _ _ _ _ _ _ Hb); exact Hp);
    assert (HC : gcell g (0, 0, 0)) by (apply interior_padded; [apply Hg|exact Hi]);
    destruct (peek_ok ov g pos (0, 0, 0)) as (p & Epk); auto;
    unfold av_compute; pose proof (name_known VEL_NOT_DEFINED "CIRCULAR" CIRCULAR []) as Hm; cbn [after_lookups fold_left] in Hm;
    fold vel_map0 in Hm; rewrite Hc; destruct (map_index _ _ _) as [nm m']; cbn [fst] in Hm; subst nm;
    rewrite (bf_dim _ _ _ _ _ _ _ F); cbn [Nat.eqb if_macro bind];
    replace (array_cells pos) with (g_n g) by (symmetry; apply Sp); rewrite Er; cbn [forM];
    unfold circ_body at 1; rewrite (aget_peek_c ov) by auto; rewrite Epk; cbn [bind];
    rewrite (bf_dim _ _ _ _ _ _ _ F), Ec; unfold circ_node; cbn [axes forM]; reflexivity.
Qed.

Lemma first_iteration_oob ov n bmin bmax (g : grid T) vi pos dt t s : built ov 2 n 1 bmin bmax g -> array_on g pos ->
  ap_vel s = ls_velocity_ctor g -> ap_map s = vel_map0 -> levelset_on g (ap_ls s) ->
  app_iteration ov true g vi pos dt t s = UB OutOfBounds.
Proof.
  intros Hb Hp Hv Hm Hl. unfold app_iteration. rewrite Hv, Hm. destruct (ctor_on _ _ _ _ _ Hb) as (_ & Hon).
  destruct (velocity_first ov n bmin bmax g vi pos t _ Hb Hp Hon) as [(r & ->) | ->]; [|reflexivity]. cbn [bind].
  pose proof (built_ok _ _ _ _ _ _ _ Hb) as F.
  rewrite third_scalar_oob; [reflexivity|apply (bf_ok _ _ _ _ _ _ _ F)|apply (bf_pad _ _ _ _ _ _ _ F)| |];
    apply (array_on_shaped _ _ _ _ _ _ _ _ Hb); apply Hl.
Qed.

Lemma app_oob ov (fs : input_fields T) gi ti : if_grid fs = Some gi -> if_time fs = Some ti -> usable_grid ov gi ->
  exists g pos s, app_setup ov fs = Ok (g, pos, s) /\ forall fuel, app_loop (Datatypes.S fuel) ov true fs g pos s = Some (UB OutOfBounds).
Proof.
  intros Hgi Hti Hu. destruct (setup_ok ov fs gi Hgi Hu) as (g & pos & s & E & Hb & Hp & _ & Hv & Hm & Hl & _).
  exists g, pos, s. split; auto. intros fuel. unfold app_loop. rewrite Hti. cbn [time_loop].
  rewrite (first_iteration_oob ov _ _ _ g (if_vel fs) pos _ _ s Hb Hp Hv Hm Hl). reflexivity.
Qed.

Lemma main_oob fuel ov to_double to_int nul fmt file d disk (fs : input_fields T) gi ti :
  fileExists fu_new disk file = true -> parse to_double to_int nul true d fields0 = Ok fs ->
  if_grid fs = Some gi -> if_time fs = Some ti -> usable_grid ov gi ->
  app_main (Datatypes.S fuel) ov true to_double to_int nul fmt (Some file) (Some d) disk = Some (UB OutOfBounds).
Proof.
  intros He Hp Hgi Hti Hu. destruct (app_oob ov fs gi ti Hgi Hti Hu) as (g & pos & s & E & K).
  unfold app_main. rewrite He. cbn [negb]. rewrite Hp, E, K. reflexivity.
Qed.
End Generic.

Lemma start_overshoot ov bt fs g pos s ti : if_time fs = Some ti -> 0 < app_dt g ti ->
  app_dt g ti + / 10000000000 < ti_start ti -> ti_start ti <= ti_end ti ->
  exists N, (ti_end ti - ti_start ti) + app_dt g ti < INR N * app_dt g ti /\ forall fuel, (N <= fuel)%nat ->
    app_loop fuel ov bt fs g pos s =
    Some (bind (run_from (app_iteration ov bt g (if_vel fs) pos (app_dt g ti)) (app_dt g ti) 0 N s)
               (fun s' => Ok (INR N * app_dt g ti, Z.of_nat N, s'))).
Proof.
  intros Ht Hd Hs He. destruct (app_terminates ov bt fs g pos s ti Ht Hd) as (N & HN & K). exists N. split; auto.
  destruct HN as ((_ & L) & _). lra.
Qed.

(** the time section of tests/.../inputs: a concrete first_reaching *)
Lemma reach_case : first_reaching (/ 4) 1 4.
Proof.
  split.
  - split; [lia|]. cbn [INR]. lra.
  - intros M (H1 & H2). destruct M as [|[|[|[|M]]]]; cbn [INR] in H2; try lra; lia.
Qed.
Definition gi_case : grid_inputs R := mkGI (V3 (-1) (-1) (-1)) (V3 1 1 1) (V3 10 10 1)%Z.
Definition ti_case : time_inputs R := mkTI 0 1 (/ 4) "NO".
Lemma usable_case ov : usable_grid ov gi_case.
Proof.
  split.
  - split; [lia|]. split; [lia|]. split; [intros []; cbn; lia|]. cbn. unfold INT_MAX. lia.
  - destruct ov; cbn [arith_ok]; auto. right. cbn. unfold INT_MAX. lia.
Qed.
Lemma cfl_case : exists g, built Trap 2 (gi_n gi_case) 1 (gi_min gi_case) (gi_max gi_case) g /\
  app_dt g ti_case = 1 /\ vget (g_dx g) AX = / 5.
Proof.
  destruct (usable_case Trap) as (H1 & H2).
  destruct (built_exists Trap 2 (gi_n gi_case) 1 (gi_min gi_case) (gi_max gi_case) H1 H2) as (g & Hb). exists g. split; auto.
  destruct (cfl_tie _ _ _ _ _ _ g ti_case Hb eq_refl) as (E & _); [cbn; unfold spacing; lra|cbn; unfold spacing; lra|].
  rewrite E, (built_dx _ _ _ _ _ _ _ Hb). unfold spacing. cbn. lra.
Qed.
Lemma loop_nonpositive0 {S} (body : R -> S -> outcome S) dt e s : dt <= 0 -> / 10000000000 < e -> total_body body ->
  forall fuel, time_loop fuel body dt e 0 0 s = None.
Proof. intros. apply loop_nonpositive; auto. lra. Qed.
