(** The forms of the MPI results that the properties use, and their cases. *)
From Coq Require Import ZArith List Permutation Bool Lia String Reals Lra.
From Verif Require Import Base Num NumB64 ModelVec ModelRefMath ModelRefMem ModelRef ModelRefMpi SpecRefPar SpecRefRun SpecRefMpi
  ProofsBase ProofsGridProps ProofsRefMem ProofsRefPar ProofsRefRun ProofsRefUpd ProofsRefReal ProofsRefMain ProofsRefPair ProofsRefMpi ProofsRefMpiStep ProofsRefMpiMain ProofsRefRunCases.
Open Scope Z_scope.

Lemma contains_same {T} {NT : Num T} nx ny f (m m' : mem T) : contains nx ny f m -> contains nx ny f m' -> same_data nx ny m m'.
Proof.
  intros (A1 & A2 & A3 & A4 & A5 & A6 & A7 & A8) (B1 & B2 & B3 & B4 & B5 & B6 & B7 & B8) a i j Ha Hi Hj.
  destruct Ha as [<-|[<-|[<-|[<-|[<-|[<-|[<-|[<-|[]]]]]]]]].
  - rewrite A1, B1 by assumption. eauto. - rewrite A2, B2 by assumption. eauto. - rewrite A3, B3 by assumption. eauto. - rewrite A4, B4 by assumption. eauto.
  - rewrite A5, B5 by assumption. eauto. - rewrite A6, B6 by assumption. eauto. - rewrite A7, B7 by assumption. eauto. - rewrite A8, B8 by assumption. eauto.
Qed.
Lemma forall2_nth {A B} (R : A -> B -> Prop) : forall l l', List.length l = List.length l' -> (forall n a b, nth_error l n = Some a -> nth_error l' n = Some b -> R a b) -> Forall2 R l l'.
Proof.
  induction l as [|a l IH]; intros [|b l'] E H; cbn in E; try discriminate; constructor; [apply (H 0%nat); reflexivity|].
  apply IH; [lia|]. intros n. apply (H (S n)).
Qed.
Lemma mpi_like_openmp (F : flow R) (s : settings R) n cap : proper s -> s_nx s / 2 * s_ny s < 2147483648 -> Z.Even (s_nx s) ->
  0 <= n < 4294967296 -> (IZR n <= s_Tfinal s / s_dt s < IZR n + 1)%R -> 0 < print_every s n \/ n = 0 ->
  (exists r, mpi_runs MPI_DOUBLE cap F s r) /\
  forall r, mpi_runs MPI_DOUBLE cap F s r -> exists m out p m' out', r = Finished (mkConf [] (m, out) [] p []) /\
    main_ true F s = Ok (m', out') /\ same_data (s_nx s) (s_ny s) m m' /\ same_blocks (s_nx s) (s_ny s) out out'.
Proof.
  intros P Hn Ev Hc Hq He. split; [eapply mpi_exists; eassumption|]. intros r H.
  assert (Ev' : s_nx s = s_nx s / 2 + s_nx s / 2) by (destruct Ev as [k E]; rewrite E, (Z.mul_comm 2), Z.div_mul by lia; lia).
  destruct (mpi_double F s P Hn n Hc Hq cap r Ev' He H) as (m & out & p & -> & C1 & L1 & B1). destruct P as (N1 & N2 & X1 & X2).
  destruct (main_blocks true F s n N1 N2 X1 X2 Hc Hq He) as (m' & out' & R' & C2 & L2 & B2).
  exists m, out, p, m', out'. split; [reflexivity|]. split; [exact R'|]. split; [eapply contains_same; eassumption|].
  apply forall2_nth; [lia|]. intros k [t1 m1] [t2 m2] E1 E2. destruct (B1 k t1 m1 E1) as [-> D1]. destruct (B2 k t2 m2 E2) as [-> D2]. cbn [fst snd].
  split; [reflexivity|]. eapply contains_same; eassumption.
Qed.
Lemma mpi_shipped (F : flow R) (s : settings R) n cap : proper s -> s_nx s / 2 * s_ny s < 2147483648 ->
  1 <= n < 4294967296 -> (IZR n <= s_Tfinal s / s_dt s < IZR n + 1)%R ->
  (exists r, mpi_runs MPI_FLOAT cap F s r) /\
  forall r, mpi_runs MPI_FLOAT cap F s r -> r = Undefined (if Z.even (s_nx s) then Uninitialised else OutOfBounds).
Proof.
  intros P Hn Hc Hq. split; [apply (mpi_exists F s n ltac:(lia) Hq)|]. intros r H.
  pose proof (Z.div_mod (s_nx s) 2 ltac:(lia)) as DM. rewrite Zmod_even in DM.
  destruct (Z.even (s_nx s)).
  - apply (mpi_float F s P Hn n ltac:(lia) Hq cap r); (lia || assumption).
  - apply (mpi_odd F s P Hn n ltac:(lia) Hq MPI_FLOAT cap r); (lia || assumption).
Qed.
Lemma mpi_odd_whole (F : flow R) (s : settings R) n cap r : proper s -> s_nx s / 2 * s_ny s < 2147483648 -> Z.Odd (s_nx s) ->
  1 <= n < 4294967296 -> (IZR n <= s_Tfinal s / s_dt s < IZR n + 1)%R -> mpi_runs MPI_DOUBLE cap F s r -> r = Undefined OutOfBounds.
Proof.
  intros P Hn Od Hc Hq H. apply (mpi_odd F s P Hn n ltac:(lia) Hq MPI_DOUBLE cap r); [|lia|exact H].
  destruct Od as [k E]. rewrite E, (Z.mul_comm 2), Z.div_add_l by lia. change (1 / 2) with 0. lia.
Qed.
Lemma exchange_spec T (NT : Num T) nnx ny a (m0 m1 : mem T) r c : 0 <= r < nnx -> 0 <= c < ny -> nnx * ny < 2147483648 ->
  m0 (a, r, c) <> None ->
  (2 * (r * ny + c + 1) <= nnx * ny -> mpi_recv ny a (mpi_send MPI_FLOAT nnx ny a m1) m0 (a, r, c) = m1 (a, r, c)) /\
  (nnx * ny <= 2 * (r * ny + c) -> mpi_recv ny a (mpi_send MPI_FLOAT nnx ny a m1) m0 (a, r, c) = m0 (a, r, c)) /\
  (2 * (r * ny + c) < nnx * ny < 2 * (r * ny + c + 1) -> mpi_recv ny a (mpi_send MPI_FLOAT nnx ny a m1) m0 (a, r, c) = Some Undef).
Proof.
  intros Hr Hc Hn E. destruct (some_of _ E) as [v Hv].
  pose proof (exchange MPI_FLOAT nnx ny a m0 m1 r c v ltac:(lia) Hr Hc ltac:(lia) Hv) as X. cbv zeta in X. unfold MPI_FLOAT in *. rewrite Z.mul_1_l in X.
  rewrite X, Hv. set (k := r * ny + c) in *. set (w := nnx * ny) in *. clearbody k w.
  split; [|split]; intros K.
  - replace (2 * k + 2 <=? w) with true by lia. reflexivity.
  - replace (2 * k + 2 <=? w) with false by lia. replace (2 * k + 1 <=? w) with false by lia. reflexivity.
  - replace (2 * k + 2 <=? w) with false by lia. replace (2 * k + 1 <=? w) with true by lia. reflexivity.
Qed.
Lemma exchange_lost nnx ny : 1 <= nnx -> 2 <= ny -> nnx * ny < 2147483648 -> exists r c, 0 <= r < nnx /\ 0 <= c < ny /\
  forall T (NT : Num T) a (m0 m1 : mem T), m0 (a, r, c) <> None -> mpi_recv ny a (mpi_send MPI_FLOAT nnx ny a m1) m0 (a, r, c) = m0 (a, r, c).
Proof.
  intros H1 H2 H3. exists (nnx - 1), (ny - 1). split; [lia|]. split; [lia|]. intros T NT a m0 m1 E.
  destruct (exchange_spec T NT nnx ny a m0 m1 (nnx - 1) (ny - 1)) as (_ & K & _); try lia; [exact E|]. apply K. nia.
Qed.

Lemma par_pack_adv T nnx nx ny teams (m m' : mem T) r : 0 <= nnx -> nx < 4294967296 ->
  team_of (nodes ny nnx nx) teams -> runs (map (pack_adv nnx) (nodes ny nnx nx)) m = Ok m' ->
  (interleaved (threads (pack_adv nnx) teams) m r -> same_result r (Ok m')) /\ ~ data_race (threads (pack_adv nnx) teams) m.
Proof. intros H1 H2. apply (par_pos (turned nnx) _ [Xadv; Yadv] [BA1; BB1]); [apply turned_nodup; assumption|intros []; cbn; congruence|apply pack_adv_touches]. Qed.
Lemma par_pack_cells T (NT : Num T) nnx nx ny teams (m m' : mem T) r : 0 <= nnx -> nx < 4294967296 ->
  team_of (nodes ny nnx nx) teams -> runs (map (pack_cells nnx) (nodes ny nnx nx)) m = Ok m' ->
  (interleaved (threads (pack_cells nnx) teams) m r -> same_result r (Ok m')) /\ ~ data_race (threads (pack_cells nnx) teams) m.
Proof. intros H1 H2. apply (par_pos (turned nnx) _ [Cellx; Celly; Tracker] [BA3; BB3; BC3]); [apply turned_nodup; assumption|intros []; cbn; congruence|apply pack_cells_touches]. Qed.
Lemma par_unpack_adv T nnx nx ny teams (m m' : mem T) r :
  team_of (nodes ny nnx nx) teams -> runs (map (unpack_adv nnx) (nodes ny nnx nx)) m = Ok m' ->
  (interleaved (threads (unpack_adv nnx) teams) m r -> same_result r (Ok m')) /\ ~ data_race (threads (unpack_adv nnx) teams) m.
Proof. apply (by_node _ [BA1; BB1] [Xadv; Yadv]); [intros []; cbn; congruence|apply unpack_adv_touches]. Qed.
Lemma par_unpack_cells T (NT : Num T) nnx nx ny teams (m m' : mem T) r :
  team_of (nodes ny nnx nx) teams -> runs (map (unpack_cells nnx) (nodes ny nnx nx)) m = Ok m' ->
  (interleaved (threads (unpack_cells nnx) teams) m r -> same_result r (Ok m')) /\ ~ data_race (threads (unpack_cells nnx) teams) m.
Proof. apply (by_node _ [BA3; BB3; BC3] [Cellx; Celly; Tracker]); [intros []; cbn; congruence|apply unpack_cells_touches]. Qed.

(** cases *)
Definition mpi_s (nx : Z) : settings R := mkSet 0%R 1%R nx 0%R 1%R 4 (1 / 8)%R 1%R 1%R 1 2 "SuperConsistent" "RK3".
Lemma mpi_case nx : 3 <= nx < 1000 -> proper (mpi_s nx) /\ s_nx (mpi_s nx) / 2 * s_ny (mpi_s nx) < 2147483648 /\
  (IZR 8 <= s_Tfinal (mpi_s nx) / s_dt (mpi_s nx) < IZR 8 + 1)%R /\ 0 < print_every (mpi_s nx) 8.
Proof.
  intros H. unfold proper. cbn [mpi_s s_nx s_ny s_xlim1 s_xlim2 s_ylim1 s_ylim2 s_Tfinal s_dt print_every s_option s_printstep].
  repeat split; try lia; try lra; try reflexivity.
  pose proof (Z.div_mod nx 2 ltac:(lia)). pose proof (Z.mod_pos_bound nx 2 ltac:(lia)). lia.
Qed.
Lemma pack_case : exists m m' : mem R, runs (map (pack_adv 3) (nodes 4 3 6)) m = Ok m' /\ m' (BA1, 2, 1) = Some (D 15%R) /\ m (BA1, 2, 1) = Some Undef.
Proof.
  pose (m := (fun l : loc => match l with (a, i, j) => match a with
     | Xadv => if in_rng 4 0 6 i j then Some (D (IZR (10 * i + j))) else None | Yadv => if in_rng 4 0 6 i j then Some (D 0%R) else None
     | BA1 | BB1 => if in_rng 3 0 4 i j then Some Undef else None | _ => None end end) : mem R).
  destruct (pack_adv_loop 3 6 4 (fun i j => IZR (10 * i + j)) (fun _ _ => 0%R) m) as (m' & R & V & _); try lia.
  - intros i j Hi Hj. unfold m. replace (in_rng 4 0 6 i j) with true by (unfold in_rng; lia). auto.
  - intros i j Hi Hj. unfold m. replace (in_rng 3 0 4 i j) with true by (unfold in_rng; lia). congruence.
  - intros i j Hi Hj. unfold m. replace (in_rng 3 0 4 i j) with true by (unfold in_rng; lia). congruence.
  - exists m, m'. split; [exact R|]. split; [apply (V 2 1); lia|reflexivity].
Qed.
