(** The memory a run of the reference programs holds. *)
From Coq Require Import ZArith List Lia Bool.
From Verif Require Import Base ModelRefMath ModelRefHeap SpecRefHeap.
Import ListNotations.
Open Scope Z_scope.

Lemma malloc_cases m b : 0 <= b -> sound m -> (held m + b <= m_limit m /\ malloc m b = (Some (m_next m), mkMem (m_limit m) (m_next m + 1) ((m_next m, b) :: m_blocks m)) /\
    sound (mkMem (m_limit m) (m_next m + 1) ((m_next m, b) :: m_blocks m))) \/ (m_limit m < held m + b /\ malloc m b = (None, m)).
Proof.
  intros B [S L]. unfold malloc. destruct (Z.leb_spec (held m + b) (m_limit m)) as [K|K]; [left|right; auto]. split; [exact K|]. split; [reflexivity|].
  split; cbn; [|unfold held in *; cbn; lia]. constructor; [cbn; lia|]. eapply Forall_impl; [|exact S]. cbn. intros. lia.
Qed.
Lemma held_cons l k p b bs : held (mkMem l k ((p, b) :: bs)) = b + held (mkMem l k bs). Proof. reflexivity. Qed.

(** one matrix: memory for it, or the program is undefined later in the step *)
Definition got (d : option Z) : bool := match d with Some _ => true | None => false end.
Lemma alloc_cases m rows cols : 1 <= rows -> 1 <= cols -> rows * cols < 4294967296 -> sound m ->
  alloc_2d m rows cols = UB Dangling \/
  exists d m', alloc_2d m rows cols = Ok (d, m') /\ sound m' /\ m_limit m' = m_limit m /\ held m' = held m + rows * 8 + (if got d then rows * cols * 8 else 0) /\
    (got d = false -> use_2d d rows cols = UB Dangling) /\ (got d = true -> use_2d d rows cols = Ok tt).
Proof.
  intros R C P S. assert (RC : 0 < rows * cols) by nia. unfold alloc_2d. unfold u32. rewrite Z.mod_small by lia.
  assert (U : forall d, (got d = false -> use_2d d rows cols = UB Dangling) /\ (got d = true -> use_2d d rows cols = Ok tt)).
  { intros [p|]; cbn; split; intros; try discriminate; auto. unfold use_2d. destruct (Z.ltb_spec 0 (rows * cols)); [reflexivity|lia]. }
  assert (R0 : (0 <? rows) = true) by (apply Z.ltb_lt; lia).
  destruct (malloc_cases m (rows * cols * 8) ltac:(lia) S) as [(A & -> & S1)|(A & ->)].
  - destruct (malloc_cases _ (rows * 8) ltac:(lia) S1) as [(B & -> & S2)|(B & ->)]; [right|left; now rewrite R0].
    eexists _, _. split; [reflexivity|]. split; [exact S2|]. split; [reflexivity|]. split; [|apply U]. cbn [m_blocks m_limit m_next got]. cbn [m_blocks m_limit m_next]. rewrite !held_cons. unfold held. cbn [m_blocks]. lia.
  - destruct (malloc_cases _ (rows * 8) ltac:(lia) S) as [(B & -> & S2)|(B & ->)]; [right|left; now rewrite R0].
    eexists _, _. split; [reflexivity|]. split; [exact S2|]. split; [reflexivity|]. split; [|apply U]. cbn [m_blocks m_limit m_next got]. cbn [m_blocks m_limit m_next]. rewrite !held_cons. unfold held. cbn [m_blocks]. lia.
Qed.
Lemma mpi_step_cases m nx ny : countable nx ny -> sound m ->
  mpi_step m nx ny = UB Dangling \/ exists m', mpi_step m nx ny = Ok m' /\ sound m' /\ m_limit m' = m_limit m /\ held m' = held m + mpi_bytes nx ny.
Proof.
  intros (N2 & Y & P) S. unfold mpi_step. cbv zeta.
  assert (R : 1 <= nx / 2) by (apply Z.div_le_lower_bound; lia). assert (RC : nx / 2 * ny < 4294967296).
  { assert (nx / 2 <= nx) by (apply Z.div_le_upper_bound; lia). nia. }
  unfold mpi_bytes. generalize dependent (nx / 2). intros r R RC. clear P N2.
  destruct (alloc_cases m r ny R Y RC S) as [->|(d1 & m1 & -> & S1 & L1 & H1 & U1 & V1)]; [left; reflexivity|]. cbn [bind fst snd].
  destruct (alloc_cases m1 r ny R Y RC S1) as [->|(d2 & m2 & -> & S2 & L2 & H2 & U2 & V2)]; [left; reflexivity|]. cbn [bind fst snd].
  destruct (alloc_cases m2 r ny R Y RC S2) as [->|(d3 & m3 & -> & S3 & L3 & H3 & U3 & V3)]; [left; reflexivity|]. cbn [bind fst snd].
  destruct (alloc_cases m3 r ny R Y RC S3) as [->|(d4 & m4 & -> & S4 & L4 & H4 & U4 & V4)]; [left; reflexivity|]. cbn [bind fst snd].
  destruct (alloc_cases m4 r ny R Y RC S4) as [->|(d5 & m5 & -> & S5 & L5 & H5 & U5 & V5)]; [left; reflexivity|]. cbn [bind fst snd].
  destruct (got d1); [rewrite V1 by reflexivity|rewrite U1 by reflexivity; left; reflexivity]. cbn [bind].
  destruct (got d2); [rewrite V2 by reflexivity|rewrite U2 by reflexivity; left; reflexivity]. cbn [bind].
  destruct (got d3); [rewrite V3 by reflexivity|rewrite U3 by reflexivity; left; reflexivity]. cbn [bind].
  destruct (got d4); [rewrite V4 by reflexivity|rewrite U4 by reflexivity; left; reflexivity]. cbn [bind].
  destruct (got d5); [rewrite V5 by reflexivity|rewrite U5 by reflexivity; left; reflexivity]. cbn [bind].
  right. exists m5. split; [reflexivity|]. split; [exact S5|]. split; [congruence|]. lia.
Qed.
(** a step for which there is room succeeds *)
Lemma alloc_room m rows cols : 1 <= rows -> 1 <= cols -> rows * cols < 4294967296 -> sound m -> held m + rows * cols * 8 + rows * 8 <= m_limit m ->
  exists d m', alloc_2d m rows cols = Ok (d, m') /\ sound m' /\ m_limit m' = m_limit m /\ held m' = held m + rows * 8 + rows * cols * 8 /\ use_2d d rows cols = Ok tt.
Proof.
  intros R C P S K. assert (RC : 0 < rows * cols) by nia. unfold alloc_2d. unfold u32. rewrite Z.mod_small by lia.
  destruct (malloc_cases m (rows * cols * 8) ltac:(lia) S) as [(A & -> & S1)|(A & _)]; [|lia].
  destruct (malloc_cases _ (rows * 8) ltac:(lia) S1) as [(B & -> & S2)|(B & _)]; [|cbn [m_limit] in B; rewrite held_cons in B; unfold held in *; cbn [m_blocks] in *; lia].
  eexists _, _. split; [reflexivity|]. split; [exact S2|]. split; [reflexivity|]. split; [|reflexivity]. cbn [m_blocks m_limit m_next]. rewrite !held_cons. unfold held. cbn [m_blocks]. lia.
Qed.
Lemma mpi_step_room m nx ny : countable nx ny -> sound m -> held m + mpi_bytes nx ny <= m_limit m -> exists m', mpi_step m nx ny = Ok m'.
Proof.
  intros (N2 & Y & P) S. unfold mpi_step, mpi_bytes. cbv zeta.
  assert (R : 1 <= nx / 2) by (apply Z.div_le_lower_bound; lia). assert (RC : nx / 2 * ny < 4294967296).
  { assert (nx / 2 <= nx) by (apply Z.div_le_upper_bound; lia). nia. }
  generalize dependent (nx / 2). intros r R RC K. clear P N2. assert (0 < r * ny) by nia.
  destruct (alloc_room m r ny R Y RC S) as (d1 & m1 & -> & S1 & L1 & H1 & U1); [lia|]. cbn [bind fst snd].
  destruct (alloc_room m1 r ny R Y RC S1) as (d2 & m2 & -> & S2 & L2 & H2 & U2); [lia|]. cbn [bind fst snd].
  destruct (alloc_room m2 r ny R Y RC S2) as (d3 & m3 & -> & S3 & L3 & H3 & U3); [lia|]. cbn [bind fst snd].
  destruct (alloc_room m3 r ny R Y RC S3) as (d4 & m4 & -> & S4 & L4 & H4 & U4); [lia|]. cbn [bind fst snd].
  destruct (alloc_room m4 r ny R Y RC S4) as (d5 & m5 & -> & S5 & L5 & H5 & U5); [lia|]. cbn [bind fst snd].
  rewrite U1, U2, U3, U4, U5. cbn. eauto.
Qed.
(** n steps go through exactly as long as there is room for n times the matrices of one *)
Lemma mpi_bytes_pos nx ny : countable nx ny -> 0 < mpi_bytes nx ny.
Proof. intros (N2 & Y & _). unfold mpi_bytes. assert (1 <= nx / 2) by (apply Z.div_le_lower_bound; lia). assert (0 < nx / 2 * ny) by nia. lia. Qed.
Lemma mpi_run_exact n m nx ny : countable nx ny -> sound m ->
  if held m + Z.of_nat n * mpi_bytes nx ny <=? m_limit m
  then exists m', mpi_run n m nx ny = Ok m' /\ held m' = held m + Z.of_nat n * mpi_bytes nx ny else mpi_run n m nx ny = UB Dangling.
Proof.
  intros C. pose proof (mpi_bytes_pos nx ny C) as B. revert m; induction n as [|n IH]; intros m S.
  - destruct (Z.leb_spec (held m + Z.of_nat 0 * mpi_bytes nx ny) (m_limit m)); [|destruct S; lia]. exists m. split; [reflexivity|lia].
  - cbn [mpi_run]. destruct (mpi_step_cases m nx ny C S) as [E|(m1 & E & S1 & L1 & H1)].
    + destruct (Z.leb_spec (held m + Z.of_nat (Datatypes.S n) * mpi_bytes nx ny) (m_limit m)) as [K|K]; [|rewrite E; reflexivity].
      destruct (mpi_step_room m nx ny C S) as (m' & E'); [nia|congruence].
    + rewrite E. cbn [bind]. specialize (IH m1 S1). rewrite L1, H1 in IH.
      replace (held m + mpi_bytes nx ny + Z.of_nat n * mpi_bytes nx ny) with (held m + Z.of_nat (Datatypes.S n) * mpi_bytes nx ny) in IH by lia. exact IH.
Qed.
Lemma mpi_runs_out m nx ny : countable nx ny -> sound m -> exists n, forall k, (n <= k)%nat -> mpi_run k m nx ny = UB Dangling.
Proof.
  intros C S. pose proof (mpi_bytes_pos nx ny C) as B. exists (Z.to_nat (m_limit m - held m + 1)). intros k K.
  pose proof (mpi_run_exact k m nx ny C S) as E. destruct (Z.leb_spec (held m + Z.of_nat k * mpi_bytes nx ny) (m_limit m)) as [L|L]; [|exact E].
  exfalso. assert (m_limit m - held m + 1 <= Z.of_nat k) by lia. nia.
Qed.

(** the CUDA program *)
Lemma free_top l k p b bs : Forall (fun b => fst b < p) bs -> cuda_free (mkMem l k ((p, b) :: bs)) p = Ok (mkMem l k bs).
Proof.
  intros F. unfold cuda_free. cbn. rewrite Z.eqb_refl. cbn. f_equal. f_equal. induction F as [|x bs X F IH]; [reflexivity|]. cbn.
  destruct (Z.eqb_spec (fst x) p); [lia|]. cbn. now rewrite IH.
Qed.
Lemma free_in l k p (pre post : list (Z * Z)) b : Forall (fun x => fst x <> p) pre -> Forall (fun x => fst x <> p) post ->
  cuda_free (mkMem l k (pre ++ (p, b) :: post)) p = Ok (mkMem l k (pre ++ post)).
Proof.
  intros F G. unfold cuda_free. cbn [m_blocks m_limit m_next]. rewrite existsb_app. cbn. rewrite Z.eqb_refl, orb_true_r. f_equal. f_equal.
  rewrite filter_app. cbn. rewrite Z.eqb_refl. cbn. assert (K : forall l, Forall (fun x : Z * Z => fst x <> p) l -> filter (fun b => negb (fst b =? p)) l = l).
  { induction 1 as [|x q X Q IH]; [reflexivity|]. cbn. destruct (Z.eqb_spec (fst x) p); [contradiction|]. cbn. now rewrite IH. }
  now rewrite !K.
Qed.
Lemma cuda_malloc_ok m b : held m + b <= m_limit m -> cuda_malloc m b = Ok (m_next m, mkMem (m_limit m) (m_next m + 1) ((m_next m, b) :: m_blocks m)).
Proof. intros H. unfold cuda_malloc, malloc. destruct (Z.leb_spec (held m + b) (m_limit m)); [reflexivity|lia]. Qed.
Lemma held_eq l k l' k' bs : held (mkMem l k bs) = held (mkMem l' k' bs). Proof. reflexivity. Qed.
Lemma cuda_step_device t ps nx ny d h : countable nx ny -> 0 < ps -> sound d -> held d + cuda_bytes nx ny <= m_limit d ->
  let print := if u32 (t + 1) mod ps =? 0 then cuda_print h nx ny else Ok h in
  exists d', sound d' /\ same_blocks d d' /\ cuda_step t ps nx ny (d, h) = (h' <- print ;; Ok (d', h')).
Proof.
  intros (N2 & Y & P) PS [S L] K print. unfold cuda_step, gridmemory, gridmemoryint. assert (B : 0 < nx * ny) by nia. assert (U : u32 (nx * ny) = nx * ny) by (unfold u32; apply Z.mod_small; lia). rewrite !U. clear U. cbn [fst snd]. unfold cuda_bytes in K.
  generalize dependent (nx * ny). intros q Q K Q0.
  destruct d as [l k bs]. cbn [m_next m_limit m_blocks] in *. rewrite (held_eq l k 0 0 bs) in K, L.
  assert (F : Forall (fun x : Z * Z => fst x < k) bs) by (eapply Forall_impl; [|exact S]; cbn; intros; lia).
  rewrite cuda_malloc_ok by (cbn [m_limit]; rewrite (held_eq l k 0 0 bs); lia). cbn [bind fst snd m_next m_limit m_blocks].
  do 4 (rewrite cuda_malloc_ok by (cbn [m_limit]; rewrite !held_cons; rewrite (held_eq _ _ 0 0 bs); lia); cbn [bind fst snd m_next m_limit m_blocks]).
  destruct (Z.eqb_spec ps 0); [lia|].
  exists (mkMem l (k + 1 + 1 + 1 + 1 + 1) bs). split; [|split].
  - split; cbn [m_blocks m_next]; [eapply Forall_impl; [|exact S]; cbn; intros; lia|rewrite (held_eq _ _ 0 0); exact L].
  - split; reflexivity.
  - fold print. destruct print as [h'| | |]; try reflexivity. cbn [bind].
    assert (NE : forall p, k <= p -> Forall (fun x : Z * Z => fst x <> p) bs) by (intros p Hp; eapply Forall_impl; [|exact F]; cbn; intros; lia).
    pose proof (free_in l (k + 1 + 1 + 1 + 1 + 1) k [(k + 1 + 1 + 1 + 1, q * 4); (k + 1 + 1 + 1, q * 4); (k + 1 + 1, q * 4); (k + 1, q * 8)] bs (q * 8) ltac:(repeat constructor; cbn; lia) ltac:(apply NE; lia)) as X; cbn [app] in X; rewrite X; clear X. cbn [bind app].
    pose proof (free_in l (k + 1 + 1 + 1 + 1 + 1) (k + 1) [(k + 1 + 1 + 1 + 1, q * 4); (k + 1 + 1 + 1, q * 4); (k + 1 + 1, q * 4)] bs (q * 8) ltac:(repeat constructor; cbn; lia) ltac:(apply NE; lia)) as X; cbn [app] in X; rewrite X; clear X. cbn [bind app].
    pose proof (free_in l (k + 1 + 1 + 1 + 1 + 1) (k + 1 + 1) [(k + 1 + 1 + 1 + 1, q * 4); (k + 1 + 1 + 1, q * 4)] bs (q * 4) ltac:(repeat constructor; cbn; lia) ltac:(apply NE; lia)) as X; cbn [app] in X; rewrite X; clear X. cbn [bind app].
    pose proof (free_in l (k + 1 + 1 + 1 + 1 + 1) (k + 1 + 1 + 1) [(k + 1 + 1 + 1 + 1, q * 4)] bs (q * 4) ltac:(repeat constructor; cbn; lia) ltac:(apply NE; lia)) as X; cbn [app] in X; rewrite X; clear X. cbn [bind app].
    pose proof (free_in l (k + 1 + 1 + 1 + 1 + 1) (k + 1 + 1 + 1 + 1) [] bs (q * 4) ltac:(repeat constructor; cbn; lia) ltac:(apply NE; lia)) as X; cbn [app] in X; rewrite X; clear X. cbn [bind app].
    reflexivity.
Qed.
Lemma same_held m m' : same_blocks m m' -> held m = held m'. Proof. intros [E _]. unfold held. now rewrite E. Qed.
(** the device memory at the end is that of the start, and the host holds two grids more for every print *)
Lemma print_cases h nx ny : countable nx ny -> sound h ->
  (held h + 16 * (nx * ny) <= m_limit h /\ exists h', cuda_print h nx ny = Ok h' /\ sound h' /\ m_limit h' = m_limit h /\ held h' = held h + 16 * (nx * ny)) \/
  (m_limit h < held h + 16 * (nx * ny) /\ cuda_print h nx ny = UB Dangling).
Proof.
  intros (N2 & Y & P) S. assert (B : 0 < nx * ny) by nia. unfold cuda_print, gridmemory, u32. rewrite Z.mod_small by lia.
  assert (R0 : (0 <? nx * ny) = true) by (apply Z.ltb_lt; lia). rewrite R0.
  destruct (malloc_cases h (nx * ny * 8) ltac:(lia) S) as [(A & -> & S1)|(A & ->)].
  - destruct (malloc_cases _ (nx * ny * 8) ltac:(lia) S1) as [(A2 & -> & S2)|(A2 & ->)]; cbn [m_limit] in A2; rewrite held_cons in A2; unfold held in *; cbn [m_blocks] in *.
    + left. split; [lia|]. eexists. split; [reflexivity|]. split; [exact S2|]. split; [reflexivity|]. cbn [m_blocks fold_right snd]. lia.
    + right. split; [lia|reflexivity].
  - right. split; [lia|]. destruct (malloc h (nx * ny * 8)) as [[p|] h2]; reflexivity.
Qed.
Lemma prints_nonneg n t ps : 0 <= prints n t ps.
Proof. revert t; induction n; intros t; cbn; [lia|]. specialize (IHn (t + 1)). destruct (_ =? _); lia. Qed.
Lemma cuda_run_exact n : forall t ps nx ny d h, countable nx ny -> 0 < ps -> sound d -> sound h -> held d + cuda_bytes nx ny <= m_limit d ->
  if held h + prints n t ps * (16 * (nx * ny)) <=? m_limit h
  then exists d' h', cuda_run n t ps nx ny (d, h) = Ok (d', h') /\ same_blocks d d' /\ held h' = held h + prints n t ps * (16 * (nx * ny))
  else cuda_run n t ps nx ny (d, h) = UB Dangling.
Proof.
  induction n as [|n IH]; intros t ps nx ny d h C PS S Sh K; assert (B : 0 < nx * ny) by (destruct C; nia).
  - cbn [prints cuda_run]. destruct (Z.leb_spec (held h + 0 * (16 * (nx * ny))) (m_limit h)); [|destruct Sh; lia]. exists d, h. split; [reflexivity|]. split; [split; reflexivity|lia].
  - cbn [prints cuda_run]. destruct (cuda_step_device t ps nx ny d h C PS S K) as (d1 & S1 & E1 & ->).
    assert (K1 : held d1 + cuda_bytes nx ny <= m_limit d1) by (rewrite <- (same_held _ _ E1); destruct E1 as [_ <-]; exact K).
    pose proof (prints_nonneg n (t + 1) ps) as PN.
    destruct (u32 (t + 1) mod ps =? 0).
    + destruct (print_cases h nx ny C Sh) as [(A & h1 & -> & Sh1 & L1 & H1)|(A & ->)]; cbn [bind].
      * specialize (IH (t + 1) ps nx ny d1 h1 C PS S1 Sh1 K1). rewrite L1, H1 in IH.
        replace (held h + 16 * (nx * ny) + prints n (t + 1) ps * (16 * (nx * ny))) with (held h + (1 + prints n (t + 1) ps) * (16 * (nx * ny))) in IH by ring.
        destruct (_ <=? _); [|exact IH]. destruct IH as (d' & h' & E & E2 & H). exists d', h'. split; [exact E|]. split; [|exact H]. destruct E1, E2; split; congruence.
      * destruct (Z.leb_spec (held h + (1 + prints n (t + 1) ps) * (16 * (nx * ny))) (m_limit h)); [nia|reflexivity].
    + cbn [bind]. specialize (IH (t + 1) ps nx ny d1 h C PS S1 Sh K1). replace (0 + prints n (t + 1) ps) with (prints n (t + 1) ps) by lia.
      destruct (_ <=? _); [|exact IH]. destruct IH as (d' & h' & E & E2 & H). exists d', h'. split; [exact E|]. split; [|exact H]. destruct E1, E2; split; congruence.
Qed.
(** every printstep-th step prints *)
Lemma div_next a ps : 0 < ps -> 0 <= a -> (a + 1) / ps = a / ps + (if (a + 1) mod ps =? 0 then 1 else 0).
Proof.
  intros PS A. pose proof (Z.div_mod (a + 1) ps ltac:(lia)) as D. pose proof (Z.mod_pos_bound (a + 1) ps PS) as M.
  destruct (Z.eqb_spec ((a + 1) mod ps) 0) as [E|E].
  - assert (a / ps = (a + 1) / ps - 1); [|lia]. symmetry. apply Z.div_unique with (r := ps - 1); nia.
  - assert (a / ps = (a + 1) / ps); [|lia]. symmetry. apply Z.div_unique with (r := (a + 1) mod ps - 1); nia.
Qed.
Lemma prints_count n : forall t ps, 0 < ps -> 0 <= t -> t + Z.of_nat n < 4294967296 -> prints n t ps = (t + Z.of_nat n) / ps - t / ps.
Proof.
  induction n as [|n IH]; intros t ps PS T N; cbn [prints].
  - replace (t + Z.of_nat 0) with t by lia. lia.
  - rewrite IH by lia. unfold u32. rewrite (Z.mod_small (t + 1)) by lia. replace (t + Z.of_nat (Datatypes.S n)) with (t + 1 + Z.of_nat n) by lia.
    rewrite (div_next t ps PS T). lia.
Qed.
Lemma cuda_run_count n ps nx ny d h : countable nx ny -> 0 < ps -> Z.of_nat n < 4294967296 -> sound d -> sound h -> held d + cuda_bytes nx ny <= m_limit d ->
  if held h + Z.of_nat n / ps * (16 * (nx * ny)) <=? m_limit h
  then exists d' h', cuda_run n 0 ps nx ny (d, h) = Ok (d', h') /\ same_blocks d d' /\ held h' = held h + Z.of_nat n / ps * (16 * (nx * ny))
  else cuda_run n 0 ps nx ny (d, h) = UB Dangling.
Proof.
  intros C PS N S Sh K. pose proof (cuda_run_exact n 0 ps nx ny d h C PS S Sh K) as E. rewrite (prints_count n 0 ps PS) in E by lia.
  rewrite Z.div_0_l, Z.sub_0_r in E by lia. exact E.
Qed.
(** with too little device memory for the arrays of a step, the first step is undefined *)
Lemma cuda_malloc_cases m b : (held m + b <= m_limit m /\ exists m', cuda_malloc m b = Ok (m_next m, m') /\ held m' = held m + b /\ m_limit m' = m_limit m) \/ cuda_malloc m b = UB Uninitialised.
Proof.
  unfold cuda_malloc, malloc. destruct (Z.leb_spec (held m + b) (m_limit m)); [left|right; reflexivity]. split; [lia|]. eexists. split; [reflexivity|]. unfold held; cbn; split; [lia|reflexivity].
Qed.
Lemma cuda_no_room t ps nx ny d h : countable nx ny -> m_limit d < held d + cuda_bytes nx ny -> cuda_step t ps nx ny (d, h) = UB Uninitialised.
Proof.
  intros (N2 & Y & P) K. assert (B : 0 < nx * ny) by nia. unfold cuda_step, gridmemory, gridmemoryint. assert (U : u32 (nx * ny) = nx * ny) by (unfold u32; apply Z.mod_small; lia).
  rewrite !U. unfold cuda_bytes in K. cbv zeta. cbn [fst snd].
  destruct (cuda_malloc_cases d (nx * ny * 8)) as [(A1 & m1 & -> & H1 & L1)| -> ]; [|reflexivity]. cbn [bind fst snd].
  destruct (cuda_malloc_cases m1 (nx * ny * 8)) as [(A2 & m2 & -> & H2 & L2)| -> ]; [|reflexivity]. cbn [bind fst snd].
  destruct (cuda_malloc_cases m2 (nx * ny * 4)) as [(A3 & m3 & -> & H3 & L3)| -> ]; [|reflexivity]. cbn [bind fst snd].
  destruct (cuda_malloc_cases m3 (nx * ny * 4)) as [(A4 & m4 & -> & H4 & L4)| -> ]; [|reflexivity]. cbn [bind fst snd].
  destruct (cuda_malloc_cases m4 (nx * ny * 4)) as [(A5 & m5 & -> & H5 & L5)| -> ]; [|reflexivity]. lia.
Qed.
