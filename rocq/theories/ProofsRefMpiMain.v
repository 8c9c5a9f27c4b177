(** Whole runs of the MPI program. *)
From Coq Require Import ZArith List Permutation Bool Lia String Reals Lra.
From Verif Require Import Base Num NumB64 ModelVec ModelRefMath ModelRefMem ModelRef ModelRefMpi SpecRefPar SpecRefRun
  ProofsBase ProofsGridProps ProofsRefMem ProofsRefPar ProofsRefRun ProofsRefUpd ProofsRefMix ProofsRefSearch ProofsRefStep ProofsRefMain ProofsRefReal ProofsRefCudaReal
  ProofsRefPair ProofsRefMpi ProofsRefMpiStep.
Open Scope Z_scope.

Lemma runs_fail {T} (Inv : mem T -> Prop) (l : list (prog T)) e : forall m,
  (forall p, In p l -> forall m, Inv m -> (exists m', run p m = Ok m' /\ Inv m') \/ run p m = UB e) ->
  (exists p, In p l /\ forall m, Inv m -> run p m = UB e) -> Inv m -> runs l m = UB e.
Proof.
  induction l as [|p l IH]; intros m H (p0 & H0 & H1) I; [destruct H0|]. unfold runs. cbn [forM].
  destruct (H p (or_introl eq_refl) m I) as [(m' & R & I')|R]; rewrite R; cbn [bind]; [|reflexivity].
  destruct H0 as [->|H0]; [rewrite H1 in R by exact I; discriminate|]. apply IH; [intros; apply H; [right|]; assumption|exists p0; auto|exact I'].
Qed.

Section Main.
Variables (F : flow R) (s : settings R).
Let nx := s_nx s.
Let ny := s_ny s.
Let nnx := nx / 2.
Let x := xs_of s.
Let y := ys_of s.
Hypothesis P : proper s.
Hypothesis Hn : nnx * ny < 2147483648.

Lemma helper_steps_ok size : nx = nnx + nnx -> forall left t mh oh, nodes_at nx ny x y mh ->
  exists p, fst (wrun (upto (helper_step size F s) t left) (mh, oh)) = Ok p.
Proof.
  intros Ev. induction left as [|left IH]; intros t mh oh Nh; [eexists; reflexivity|]. cbn [upto].
  destruct (helper_step_ok F s P Ev size t mh oh Nh) as (m1 & m2 & W & Nh2 & _). rewrite (wrun_app _ _ _ _ _ W). cbn [fst]. apply IH. exact Nh2.
Qed.

(** half a buffer arrives: rank 0 fails *)
Lemma root_first_float every t m out m1 m2 q : nx = nnx + nnx -> nodes_at nx ny x y m ->
  (forall r c, 0 <= c < ny -> 0 <= r < nnx -> m1 (BA1, r, c) = Some (D (footx F s t c (r + nnx))) /\ m1 (BB1, r, c) = Some (D (footy F s t c (r + nnx)))) ->
  rrun (firstn 4 (root_step F s every t)) (m, out) (step_msgs s MPI_FLOAT m1 m2 ++ q) = RUb Uninitialised.
Proof.
  intros Ev Hn0 B1. pose proof (half s P) as Hh. fold nx nnx in Hh. destruct P as (N1 & N2 & _). fold nx in N1. fold ny in N2.
  destruct (root_start_ok F s P t m Hn0) as (ma & Ra & _ & X & Y & O).
  set (mb := mpi_recv ny BB1 (mpi_send MPI_FLOAT nnx ny BB1 m1) (mpi_recv ny BA1 (mpi_send MPI_FLOAT nnx ny BA1 m1) ma)).
  assert (Bb : forall r c, 0 <= c < ny -> 0 <= r < nnx ->
     mb (BA1, r, c) = Some (if 2 * (r * ny + c) + 2 <=? nnx * ny then D (footx F s t c (r + nnx)) else Undef) /\
     mb (BB1, r, c) = Some (if 2 * (r * ny + c) + 2 <=? nnx * ny then D (footy F s t c (r + nnx)) else Undef)).
  { intros r c Hc Hr. destruct (B1 r c Hc Hr) as [E1 E2]. unfold mb. split.
    - rewrite recv_other by reflexivity. rewrite (exchange _ _ _ _ _ _ _ _ Undef); try lia.
      + cbv zeta. change (MPI_FLOAT * (nnx * ny)) with (1 * (nnx * ny)). rewrite Z.mul_1_l. destruct (_ <=? _); [exact E1|]. destruct (_ <=? _); reflexivity.
      + rewrite O, fresh_buf by (congruence || assumption || cbn; auto 6). reflexivity.
    - rewrite (exchange _ _ _ _ _ _ _ _ Undef); try lia.
      + cbv zeta. change (MPI_FLOAT * (nnx * ny)) with (1 * (nnx * ny)). rewrite Z.mul_1_l. destruct (_ <=? _); [exact E2|]. destruct (_ <=? _); reflexivity.
      + rewrite recv_other, O, fresh_buf by (reflexivity || congruence || assumption || cbn; auto 6). reflexivity. }
  assert (Ob : forall a i j, a <> BA1 -> a <> BB1 -> mb (a, i, j) = ma (a, i, j)).
  { intros a i j A A'. unfold mb. rewrite !recv_other by (destruct a; reflexivity || congruence). reflexivity. }
  assert (R : root_middle s mb = UB Uninitialised).
  { unfold root_middle. fold nx ny nnx. cbv zeta. rewrite (runs_fail (fun m' => (forall r c, 0 <= c < ny -> 0 <= r < nnx -> m' (BA1, r, c) = mb (BA1, r, c) /\ m' (BB1, r, c) = mb (BB1, r, c)) /\
      present Xadv ny nx m' /\ present Yadv ny nx m') _ Uninitialised); [reflexivity| | |].
    - intros p Hp m' (I1 & I2 & I3). apply in_map_iff in Hp as ([i j] & <- & Hp). apply in_nodes in Hp as [Hi Hj].
      destruct (Bb (j - nnx) i) as [E1 E2]; try lia. destruct (I1 (j - nnx) i) as [K1 K2]; try lia. rewrite E1 in K1. rewrite E2 in K2.
      unfold unpack_adv. rewrite u32_small by lia. destruct (_ <=? _); [left|right].
      + destruct (some_of _ (I2 i j Hi ltac:(lia))) as [v1 Hv1]. destruct (some_of _ (I3 i j Hi ltac:(lia))) as [v2 Hv2].
        rewrite (run_rd _ _ _ _ K1). rewrite (run_wr _ _ _ v1) by exact Hv1.
        rewrite (run_rd _ _ (footy F s t i (j - nnx + nnx))) by (rewrite upd_other by congruence; exact K2).
        rewrite (run_wr _ _ _ v2) by (rewrite upd_other by congruence; exact Hv2). eexists. split; [reflexivity|].
        split; [intros r c Hc Hr; look; auto|].
        split; intros i' j' Hi' Hj'; unfold upd; destruct (loc_eqb _ _); try congruence; destruct (loc_eqb _ _); try congruence; auto.
      + unfold rd. cbn [run]. rewrite K1. reflexivity.
    - exists (unpack_adv nnx (ny - 1, nx - 1)). split; [apply in_map, in_nodes; lia|]. intros m' (I1 & _).
      destruct (Bb (nx - 1 - nnx) (ny - 1)) as [E1 E2]; try lia. destruct (I1 (nx - 1 - nnx) (ny - 1)) as [K1 K2]; try lia. rewrite E1 in K1.
      unfold unpack_adv, rd. rewrite u32_small by lia. cbn [run]. rewrite K1.
      replace (nx - 1 - nnx) with (nnx - 1) by lia.
      replace (2 * ((nnx - 1) * ny + (ny - 1)) + 2 <=? nnx * ny) with false by nia. reflexivity.
    - split; [auto|]. split; intros i j Hi Hj; rewrite Ob by congruence; [rewrite X by assumption|rewrite Y by assumption]; congruence. }
  unfold root_step, on_mem, step_msgs. fold nx ny nnx. cbv zeta. cbn [firstn rrun fst snd bind app]. rewrite Ra. cbn [rrun fst snd bind].
  fold mb. rewrite R. reflexivity.
Qed.
Lemma root_step_float every t m out m1 m2 q : nx = nnx + nnx -> nodes_at nx ny x y m ->
  (forall r c, 0 <= c < ny -> 0 <= r < nnx -> m1 (BA1, r, c) = Some (D (footx F s t c (r + nnx))) /\ m1 (BB1, r, c) = Some (D (footy F s t c (r + nnx)))) ->
  rrun (root_step F s every t) (m, out) (step_msgs s MPI_FLOAT m1 m2 ++ q) = RUb Uninitialised.
Proof. intros Ev Nd B. rewrite <- (firstn_skipn 4 (root_step F s every t)). apply rrun_app_ub, root_first_float; assumption. Qed.

(** odd nx: rank 1 writes past its buffer *)
Lemma helper_step_odd size t m out : nx = nnx + nnx + 1 -> nodes_at nx ny x y m ->
  wrun (helper_step size F s t) (m, out) = (UB OutOfBounds, []).
Proof.
  intros Od H. pose proof (half s P) as Hh. fold nx nnx in Hh. destruct P as (N1 & N2 & _). fold nx in N1. fold ny in N2.
  assert (R : helper_start F s t m = UB OutOfBounds); [|unfold helper_step, on_mem; cbv zeta; cbn [wrun fst snd bind]; rewrite R; reflexivity].
  unfold helper_start. fold nx ny nnx. cbv zeta.
  destruct (trace_ok F s t nnx nx m) as (m1 & R1 & Nd & X & Y & O1); try (fold nx; lia); [exact H|]. rewrite R1. cbn [bind].
  assert (FX : forall i j, 0 <= i < ny -> 0 <= j < nx -> m1 (Xadv, i, j) = Some (D (part nnx nx (footx F s t) i j))) by (intros; apply X; assumption).
  assert (FY : forall i j, 0 <= i < ny -> 0 <= j < nx -> m1 (Yadv, i, j) = Some (D (part nnx nx (footy F s t) i j))) by (intros; apply Y; assumption).
  apply (runs_fail (fun m' => (forall i j, 0 <= i < ny -> 0 <= j < nx -> m' (Xadv, i, j) = m1 (Xadv, i, j) /\ m' (Yadv, i, j) = m1 (Yadv, i, j)) /\
     present BA1 nnx ny m' /\ present BB1 nnx ny m' /\ forall c, m' (BA1, nnx, c) = None)).
  - intros p Hp m' (I1 & I2 & I3 & I4). apply in_map_iff in Hp as ([i j] & <- & Hp). apply in_nodes in Hp as [Hi Hj].
    destruct (I1 i j) as [K1 K2]; try lia. rewrite FX in K1 by lia. rewrite FY in K2 by lia.
    unfold pack_adv. rewrite u32_small by lia. rewrite (run_rd _ _ _ _ K1).
    destruct (Z.eq_dec (j - nnx) nnx) as [E|E]; [right; rewrite E; cbn [run]; rewrite I4; reflexivity|left].
    destruct (some_of _ (I2 (j - nnx) i ltac:(lia) ltac:(lia))) as [v1 Hv1]. destruct (some_of _ (I3 (j - nnx) i ltac:(lia) ltac:(lia))) as [v2 Hv2].
    rewrite (run_wr _ _ _ v1) by exact Hv1. rewrite (run_rd _ _ (part nnx nx (footy F s t) i j)) by (rewrite upd_other by congruence; exact K2).
    rewrite (run_wr _ _ _ v2) by (rewrite upd_other by congruence; exact Hv2). eexists. split; [reflexivity|].
    split; [intros i' j' Hi' Hj'; look; auto|].
    split; [|split]; try (intros i' j' Hi' Hj'; unfold upd; destruct (loc_eqb _ _); try congruence; destruct (loc_eqb _ _); try congruence; auto).
    intros c. look. apply I4.
  - exists (pack_adv nnx (0, nx - 1)). split; [apply in_map, in_nodes; lia|]. intros m' (I1 & I2 & I3 & I4).
    destruct (I1 0 (nx - 1)) as [K1 K2]; try lia. rewrite FX in K1 by lia. unfold pack_adv. rewrite u32_small by lia. rewrite (run_rd _ _ _ _ K1).
    replace (nx - 1 - nnx) with nnx by lia. cbn [run]. rewrite I4. reflexivity.
  - split; [auto|]. split; [|split].
    + intros i j Hi Hj. rewrite O1, fresh_buf by (congruence || assumption || cbn; auto 6). congruence.
    + intros i j Hi Hj. rewrite O1, fresh_buf by (congruence || assumption || cbn; auto 6). congruence.
    + intros c. rewrite O1 by congruence. apply fresh_none; [cbn; auto|fold nx nnx; lia].
Qed.

Variable n : Z.
Hypothesis Hc : 0 <= n < 4294967296.
Hypothesis Hq : (IZR n <= s_Tfinal s / s_dt s < IZR n + 1)%R.

Lemma start_ok size : exists m, nodes_at nx ny x y m /\ contains nx ny (initial x y) m /\
  mpi_start size F s = Ok (mkConf (upto (root_step F s (print_every s n)) 0 (Z.to_nat n)) (m, [(0%R, m)])
     (upto (helper_step size F s) 0 (Z.to_nat n)) (m, [(0%R, m)]) []).
Proof.
  unfold mpi_start. rewrite (step_count_R s n Hc Hq). cbn [bind]. destruct (setup_ok s) as (m & R0 & A & B & _). rewrite R0. cbn [bind]. exists m. auto.
Qed.
Lemma mpi_exists size cap : exists r, mpi_runs size cap F s r.
Proof. destruct (start_ok size) as (m & _ & _ & E). destruct (some_ending cap (mkConf (upto (root_step F s (print_every s n)) 0 (Z.to_nat n)) (m, [(0%R, m)])
     (upto (helper_step size F s) 0 (Z.to_nat n)) (m, [(0%R, m)]) [])) as [r Hr]. exists r. eexists. split; [exact E|exact Hr]. Qed.

Lemma mpi_float cap r : nx = nnx + nnx -> 1 <= n -> mpi_runs MPI_FLOAT cap F s r -> r = Undefined Uninitialised.
Proof.
  intros Ev N1 (c & E & H). destruct (start_ok MPI_FLOAT) as (m & A & B & E'). rewrite E' in E. injection E as <-.
  destruct (Z.to_nat n) as [|n'] eqn:En; [lia|].
  destruct (helper_steps_ok MPI_FLOAT Ev (S n') 0 m [(0%R, m)] A) as [p Hp].
  eapply pair_bad; [exact H|]. unfold whole. cbn [c_w c_ws c_r c_rs c_q app]. rewrite Hp.
  f_equal. cbn [upto]. 
  destruct (helper_step_ok F s P Ev MPI_FLOAT 0 m [(0%R, m)] A) as (m1 & m2 & W & Nh2 & B1 & B2).
  rewrite (wrun_app _ _ _ _ _ W). cbn [snd]. apply rrun_app_ub. apply root_step_float; assumption.
Qed.
Lemma mpi_odd size cap r : nx = nnx + nnx + 1 -> 1 <= n -> mpi_runs size cap F s r -> r = Undefined OutOfBounds.
Proof.
  intros Od N1 (c & E & H). destruct (start_ok size) as (m & A & B & E'). rewrite E' in E. injection E as <-.
  destruct (Z.to_nat n) as [|n'] eqn:En; [lia|].
  pose proof (helper_step_odd size 0 m [(0%R, m)] Od A) as W.
  eapply pair_lost; [exact H|]. unfold whole. cbn [c_w c_ws c_r c_rs c_q app upto]. rewrite (wrun_app_ub _ _ _ _ _ W). cbn [fst snd].
  f_equal. apply rrun_app_wait. destruct (root_start_ok F s P 0 m A) as (ma & Ra & _).
  unfold root_step, on_mem. cbv zeta. cbn [rrun fst snd bind]. rewrite Ra. reflexivity.
Qed.
Lemma mpi_double cap r : nx = nnx + nnx -> 0 < print_every s n \/ n = 0 -> mpi_runs MPI_DOUBLE cap F s r ->
  exists m out p, r = Finished (mkConf [] (m, out) [] p []) /\ contains nx ny (after true F s x y (Z.to_nat n) (initial x y)) m /\
    Z.of_nat (length out) = 1 + n / print_every s n /\
    forall b tm mm, nth_error out b = Some (tm, mm) ->
      let q := Z.of_nat b * print_every s n in
      tm = (IZR q * s_dt s)%R /\ contains nx ny (after true F s x y (Z.to_nat q) (initial x y)) mm.
Proof.
  intros Ev He (c & E & H). destruct (start_ok MPI_DOUBLE) as (m & A & B & E'). rewrite E' in E. injection E as <-.
  destruct (Z.eq_dec n 0) as [N0|N0].
  - rewrite N0 in H |- *. cbn [Z.to_nat upto] in H. eapply pair_ok in H; [|reflexivity]. rewrite H. exists m, [(0%R, m)], (m, [(0%R, m)]). split; [reflexivity|].
    cbn [Z.to_nat after length]. split; [exact B|]. split; [rewrite Zdiv_0_l; reflexivity|]. intros [|b] tm mm; cbn [nth_error]; [|destruct b; discriminate].
    intros K. injection K as <- <-. cbn. split; [lra|exact B].
  - assert (He' : 0 < print_every s n) by lia. set (every := print_every s n) in *. clearbody every.
    change 0 with (Z.of_nat 0) in H.
    destruct (loop_mpi F s P Hn Ev every (initial x y) He' (Z.to_nat n) 0%nat m [(0%R, m)] m [(0%R, m)]) as (m1 & out & mh & oh & W & B1 & [Len Blk] & Oh); try assumption.
    + lia.
    + split; [cbn [length]; rewrite Zdiv_0_l; reflexivity|]. intros [|b] bb; cbn [nth_error]; [|destruct b; discriminate]. intros K. injection K as <-.
      exists 0%nat. split; [reflexivity|]. cbn [fst snd]. split; [|exact B]. rewrite time_at_num by lia. cbn. lra.
    + eapply pair_ok in H; [|exact W]. rewrite Nat.add_0_l, Z2Nat.id in Len by lia. rewrite H. exists m1, out, (mh, oh). split; [reflexivity|]. split; [exact B1|]. split; [exact Len|].
      intros b tm mm Hb. destruct (Blk b (tm, mm) Hb) as (q' & Q1 & Q2 & Q3). cbn [fst snd] in Q2, Q3. cbv zeta. rewrite <- Q1, Nat2Z.id. split; [|exact Q3].
      rewrite Q2. apply time_at_num. split; [lia|].
      assert (Hlt : (b < length out)%nat) by (apply nth_error_Some; congruence).
      assert (Z.of_nat b <= n / every) by lia. assert (Z.of_nat b * every <= n / every * every) by (apply Z.mul_le_mono_nonneg_r; lia).
      pose proof (Z.mul_div_le n every ltac:(lia)). lia.
Qed.
End Main.
