(** The MPI program with any number of processes. *)
From Coq Require Import ZArith List Bool Lia String Reals Lra.
From Verif Require Import Base Num NumB64 ModelVec ModelRefMath ModelRefMem ModelRef ModelRefMpi ModelRefMpiN SpecRefPar SpecRefRun SpecRefMpi
  ProofsBase ProofsRefMem ProofsRefMain ProofsRefPair ProofsRefMpi ProofsRefMpiStep ProofsRefMpiMain ProofsRefMpiApi ProofsRefWorld.
Open Scope Z_scope.

Lemma finished_whole {S M} cap (c : conf S M) r : executes cap c r -> forall s0 s1, r = Finished (mkConf [] s0 [] s1 []) -> whole c = (RFin s0 [], Ok s1).
Proof.
  induction 1 as [c O|c c' r Hm H IH|c e Hb|c Ho Hs Hb]; intros s0 s1 E; try discriminate.
  - injection E as ->. reflexivity.
  - rewrite <- (move_keeps _ _ _ Hm). apply IH. exact E.
Qed.

Section N.
Variables (F : flow R) (s : settings R) (n : Z).
Let nx := s_nx s.
Let ny := s_ny s.
Let nnx := nx / 2.
Let x := xs_of s.
Let y := ys_of s.
Hypothesis P : proper s.
Hypothesis Hn : nnx * ny < 2147483648.
Hypothesis Hc : 0 <= n < 4294967296.
Hypothesis Hq : (IZR n <= s_Tfinal s / s_dt s < IZR n + 1)%R.

Lemma helper_count size : nx = nnx + nnx -> forall left t mh oh, nodes_at nx ny x y mh ->
  exists p l, wrun (upto (helper_step size F s) t left) (mh, oh) = (Ok p, l) /\ length l = (5 * left)%nat.
Proof.
  intros Ev. induction left as [|left IH]; intros t mh oh Nh; [eexists _, []; split; reflexivity|]. cbn [upto].
  destruct (helper_step_ok F s P Ev size t mh oh Nh) as (m1 & m2 & W & Nh2 & _).
  destruct (IH (t + 1) m2 oh Nh2) as (p & l & W' & L). rewrite (wrun_app _ _ _ _ _ W), W'. cbn [fst snd]. eexists p, _. split; [reflexivity|].
  rewrite app_length, L. unfold step_msgs. cbn [length]. lia.
Qed.
Lemma others_inv {S M} cap (w : list (writer S M)) st o l k : wrun w st = (o, l) -> Forall (oinv cap (o, l)) (repeat (mkOther w st []) k).
Proof.
  intros E. apply Forall_forall. intros u Hu. apply repeat_spec in Hu. subst u. split; [|cbn; lia]. unfold oend. cbn [o_w o_s o_q app]. rewrite E. reflexivity.
Qed.
Lemma even_half : Z.Even nx -> nx = nnx + nnx.
Proof. intros [k E]. unfold nnx. rewrite E, (Z.mul_comm 2), Z.div_mul by lia. lia. Qed.

Lemma world_exists procs size cap : exists r, mpi_world (S (S procs)) size cap F s r.
Proof.
  destruct (start_ok F s n Hc Hq size) as (m & _ & _ & E).
  destruct (wsome_ending cap (mkConf (upto (root_step F s (print_every s n)) 0 (Z.to_nat n)) (m, [(0%R, m)])
     (upto (helper_step size F s) 0 (Z.to_nat n)) (m, [(0%R, m)]) [], repeat (mkOther (upto (helper_step size F s) 0 (Z.to_nat n)) (m, [(0%R, m)]) []) procs)) as [r Hr].
  exists r. eexists. split; [exact E|exact Hr].
Qed.
Lemma world_double procs cap : Z.Even nx -> 0 < print_every s n \/ n = 0 ->
  (exists r, mpi_world (S (S procs)) MPI_DOUBLE cap F s r) /\
  forall r, mpi_world (S (S procs)) MPI_DOUBLE cap F s r -> exists m out p os m' out',
    r = (if ((Z.of_nat procs =? 0) || (5 * n <=? Z.of_nat cap))%bool then WFinished else WDeadlock) (mkConf [] (m, out) [] p []) os /\
    main_ true F s = Ok (m', out') /\ same_data nx ny m m' /\ same_blocks nx ny out out' /\
    length os = procs /\ forall o, In o os -> Z.of_nat (length (o_q o)) = Z.min (Z.of_nat cap) (5 * n).
Proof.
  intros Ev He. split; [apply world_exists|]. intros r (c & E & H).
  destruct (start_ok F s n Hc Hq MPI_DOUBLE) as (m0 & A & B & E'). rewrite E' in E. injection E as <-.
  destruct (mpi_like_openmp F s n cap P Hn Ev Hc Hq He) as ((r0 & c0 & E0 & H0) & G).
  destruct (G r0 (ex_intro _ c0 (conj E0 H0))) as (m & out & p & m' & out' & -> & R' & D & Bl).
  rewrite E' in E0. injection E0 as <-.
  pose proof (finished_whole _ _ _ H0 _ _ eq_refl) as W.
  destruct (helper_count MPI_DOUBLE (even_half Ev) (Z.to_nat n) 0 m0 [(0%R, m0)] A) as (p' & l & Wl & Ll).
  destruct (world_ok cap _ r H (m, out) p p' l) as (os & Lo & Fo & ->); [exact W|apply others_inv; exact Wl|].
  cbn [snd] in Lo. rewrite repeat_length in Lo.
  exists m, out, p, os, m', out'. split; [|split; [exact R'|split; [exact D|split; [exact Bl|split; [exact Lo|]]]]].
  - replace (Nat.eqb (length os) 0 || Nat.leb (length l) cap)%bool with ((Z.of_nat procs =? 0) || (5 * n <=? Z.of_nat cap))%bool.
    { destruct ((Z.of_nat procs =? 0) || (5 * n <=? Z.of_nat cap))%bool; reflexivity. }
    rewrite Lo, Ll. f_equal; apply eq_true_iff_eq; rewrite ?Z.eqb_eq, ?Nat.eqb_eq, ?Z.leb_le, ?Nat.leb_le; lia.
  - intros o Hi. rewrite Forall_forall in Fo. destruct (Fo o Hi) as (Q & _). rewrite Ll in Q. etransitivity; [apply (f_equal Z.of_nat Q)|]. lia.
Qed.
Lemma world_shipped procs cap : 1 <= n ->
  (exists r, mpi_world (S (S procs)) MPI_FLOAT cap F s r) /\
  forall r, mpi_world (S (S procs)) MPI_FLOAT cap F s r -> r = WUndefined (if Z.even nx then Uninitialised else OutOfBounds).
Proof.
  intros N1. split; [apply world_exists|]. intros r (c & E & H).
  destruct (start_ok F s n Hc Hq MPI_FLOAT) as (m & A & B & E'). rewrite E' in E. injection E as <-.
  destruct (Z.to_nat n) as [|n'] eqn:En; [lia|].
  pose proof (Z.div_mod nx 2 ltac:(lia)) as DM. rewrite Zmod_even in DM. fold nnx in DM.
  destruct (Z.even nx).
  - assert (Ev : nx = nnx + nnx) by lia.
    destruct (helper_count MPI_FLOAT Ev (S n') 0 m [(0%R, m)] A) as (p & l & Hp & _).
    eapply world_bad; [exact H| |apply others_inv; exact Hp]. unfold whole. cbn [c_w c_ws c_r c_rs c_q app fst]. rewrite Hp. cbn [fst snd].
    f_equal. cbn [upto] in Hp |- *.
    destruct (helper_step_ok F s P Ev MPI_FLOAT 0 m [(0%R, m)] A) as (m1 & m2 & W & Nh2 & B1 & B2).
    rewrite (wrun_app _ _ _ _ _ W) in Hp. injection Hp as _ <-. apply rrun_app_ub. apply root_step_float; assumption.
  - assert (Od : nx = nnx + nnx + 1) by lia.
    pose proof (helper_step_odd F s P Hn MPI_FLOAT 0 m [(0%R, m)] Od A) as W.
    assert (W' : wrun (upto (helper_step MPI_FLOAT F s) 0 (S n')) (m, [(0%R, m)]) = (UB OutOfBounds, [])) by (cbn [upto]; apply wrun_app_ub; exact W).
    eapply world_lost; [exact H| |apply others_inv; exact W']. unfold whole. cbn [c_w c_ws c_r c_rs c_q app fst]. rewrite W'. cbn [fst snd].
    f_equal. cbn [upto]. apply rrun_app_wait. destruct (root_start_ok F s P 0 m A) as (ma & Ra & _).
    unfold root_step, on_mem. cbv zeta. cbn [rrun fst snd bind]. rewrite Ra. reflexivity.
Qed.
Lemma world_alone size cap : 1 <= n ->
  (exists r, mpi_world 1 size cap F s r) /\ forall r, mpi_world 1 size cap F s r -> r = WAborted.
Proof.
  intros N1. destruct (start_ok F s n Hc Hq size) as (m & A & B & E').
  destruct (Z.to_nat n) as [|n'] eqn:En; [lia|]. destruct (root_start_ok F s P 0 m A) as (ma & Ra & _).
  assert (R1 : on_mem (root_start F s 0) (m, [(0%R, m)]) = Ok (ma, [(0%R, m)])) by (unfold on_mem; cbn [fst]; rewrite Ra; reflexivity).
  split.
  - eexists. eexists. split; [exact E'|]. cbn [c_r c_rs upto]. unfold root_step at 1. cbv zeta. cbn [app]. eapply al_do; [exact R1|]. apply al_recv.
  - intros r (c & E & H). rewrite E' in E. injection E as <-. cbn [c_r c_rs upto] in H. unfold root_step at 1 in H. cbv zeta in H. cbn [app] in H.
    inversion H as [|f p st st' r' Hf Hr| |]; subst; [|congruence]. inversion Hr. reflexivity.
Qed.
End N.
Lemma world_stuck (F : flow R) (s : settings R) n procs cap r : proper s -> s_nx s / 2 * s_ny s < 2147483648 -> Z.Even (s_nx s) ->
  0 <= n < 4294967296 -> (IZR n <= s_Tfinal s / s_dt s < IZR n + 1)%R -> 0 < print_every s n \/ n = 0 ->
  (3 <= procs)%nat -> Z.of_nat cap < 5 * n -> mpi_world procs MPI_DOUBLE cap F s r -> exists c os, r = WDeadlock c os.
Proof.
  intros P Hn Ev Hc Hq He Hp Hcap H. destruct procs as [|[|procs]]; [lia..|].
  destruct (world_double F s n P Hn Hc Hq procs cap Ev He) as (_ & G). destruct (G r H) as (m & out & p & os & m' & out' & -> & _).
  replace ((Z.of_nat procs =? 0) || (5 * n <=? Z.of_nat cap))%bool with false; [eauto|]. symmetry. apply orb_false_iff. split; [apply Z.eqb_neq|apply Z.leb_gt]; lia.
Qed.
Lemma world_shipped_any (F : flow R) (s : settings R) n procs cap : proper s -> s_nx s / 2 * s_ny s < 2147483648 ->
  1 <= n < 4294967296 -> (IZR n <= s_Tfinal s / s_dt s < IZR n + 1)%R -> (1 <= procs)%nat ->
  (exists r, mpi_world procs MPI_FLOAT cap F s r) /\
  forall r, mpi_world procs MPI_FLOAT cap F s r ->
    r = if Nat.eqb procs 1 then WAborted else WUndefined (if Z.even (s_nx s) then Uninitialised else OutOfBounds).
Proof.
  intros P Hn Hc Hq Hp. destruct procs as [|[|procs]]; [lia|apply (world_alone F s n P ltac:(lia) Hq); lia|apply (world_shipped F s n P Hn ltac:(lia) Hq); lia].
Qed.
Lemma world_whole_any (F : flow R) (s : settings R) n procs cap : proper s -> s_nx s / 2 * s_ny s < 2147483648 -> Z.Even (s_nx s) ->
  0 <= n < 4294967296 -> (IZR n <= s_Tfinal s / s_dt s < IZR n + 1)%R -> 0 < print_every s n \/ n = 0 ->
  (2 <= procs)%nat -> procs = 2%nat \/ 5 * n <= Z.of_nat cap ->
  (exists r, mpi_world procs MPI_DOUBLE cap F s r) /\
  forall r, mpi_world procs MPI_DOUBLE cap F s r -> exists m out p os m' out', r = WFinished (mkConf [] (m, out) [] p []) os /\
    main_ true F s = Ok (m', out') /\ same_data (s_nx s) (s_ny s) m m' /\ same_blocks (s_nx s) (s_ny s) out out' /\
    (length os + 2)%nat = procs /\ forall o, In o os -> Z.of_nat (length (o_q o)) = 5 * n.
Proof.
  intros P Hn Ev Hc Hq He Hp Hcap. destruct procs as [|[|procs]]; [lia..|].
  destruct (world_double F s n P Hn Hc Hq procs cap Ev He) as (A & G). split; [exact A|]. intros r H.
  destruct (G r H) as (m & out & p & os & m' & out' & -> & R & D & B & L & K). exists m, out, p, os, m', out'.
  assert (T : ((Z.of_nat procs =? 0) || (5 * n <=? Z.of_nat cap))%bool = true).
  { apply orb_true_iff. rewrite Z.eqb_eq, Z.leb_le. lia. }
  rewrite T. split; [reflexivity|]. repeat (split; [assumption|]). split; [lia|]. intros o Hi. specialize (K o Hi).
  destruct Hcap as [Hp2|Hcap]; [|lia]. assert (procs = 0)%nat by lia. subst procs. destruct os; [destruct Hi|discriminate].
Qed.
Lemma alone_any (F : flow R) (s : settings R) n size cap : proper s ->
  1 <= n < 4294967296 -> (IZR n <= s_Tfinal s / s_dt s < IZR n + 1)%R ->
  (exists r, mpi_world 1 size cap F s r) /\ forall r, mpi_world 1 size cap F s r -> r = WAborted.
Proof. intros P Hc Hq. apply (world_alone F s n P ltac:(lia) Hq). lia. Qed.
