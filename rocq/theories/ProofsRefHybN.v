(** The program with processes and threads, any number of processes. *)
From Coq Require Import ZArith List Permutation Bool Lia Arith Wf_nat Reals String Classical_Prop.
From Verif Require Import Base Num NumB64 ModelVec ModelRefMath ModelRefMem ModelRef ModelRefMpi ModelRefMpiN ModelRefOmp ModelRefHybN SpecRefPar SpecRefRun SpecRefMpi SpecRefHybN
  ProofsBase ProofsRefMem ProofsRefPar ProofsRefRun ProofsRefMain ProofsRefReal ProofsRefPair ProofsRefMpi ProofsRefMpiStep ProofsRefMpiMain ProofsRefMpiApi
  ProofsRefOmp ProofsRefHyb ProofsRefWorld ProofsRefMpiN.
Open Scope Z_scope.

Section World.
Context {S M : Type}.
Implicit Types (c : pconf S M) (o : pother S M) (os : list (pother S M)) (w : pconf S M * list (pother S M)).

(** a pair all of whose executions are undefined *)
Definition doomed cap c : Prop := forall r, pexecutes cap c r -> exists e, r = PUndefined e.
Lemma doomed_world cap w r : pwexecutes cap w r -> doomed cap (fst w) -> exists e, r = PWUndefined e.
Proof.
  induction 1 as [[c os] (O1 & O2)|[c os] w' r Hm H IH|[c os] e Hb|[c os] Ho Hm Hb]; intros D; cbn [fst snd] in *; [| |eauto|].
  - exfalso. destruct (D _ (px_over cap c O1)) as [e E]. discriminate.
  - apply IH. inversion Hm as [? c' ? Hp|]; subst; cbn [fst]; [|exact D]. intros r' Hr. apply D. eapply px_move; eassumption.
  - exfalso. destruct (classic (pover c)) as [O|O]; [destruct (D _ (px_over cap c O)) as [e E]; discriminate|].
    destruct (D PDeadlock) as [e E]; [|discriminate]. apply px_stuck; [exact O| |].
    + intros c' Hc. eapply Hm. apply pwm_pair. exact Hc.
    + intros e Hc. eapply Hb. apply pwb_pair. exact Hc.
Qed.
(** an undefined execution of the pair *)
Lemma pair_world cap c r : pexecutes cap c r -> forall e os, r = PUndefined e -> pwexecutes cap (c, os) (PWUndefined e).
Proof.
  induction 1 as [c O|c c' r Hm H IH|c e' Hb|c Ho Hm Hb]; intros e os E; try discriminate.
  - eapply pwx_move; [apply pwm_pair; exact Hm|]. apply IH. exact E.
  - injection E as ->. apply pwx_ub, pwb_pair. exact Hb.
Qed.

(** a further process whose computations follow functions *)
Definition psound cap s' (l : list M) o : Prop := exists v, Forall2 wsim v (po_w o) /\ oinv cap (Ok s', l) (mkOther v (po_s o) (po_q o)).
Lemma psound_move cap s' l o o' : pomove cap o o' -> psound cap s' l o -> psound cap s' l o'.
Proof.
  intros Hm (v & Fv & I). destruct Hm as [f p s s2 q Hf|f p s q Hl]; cbn [po_w po_s po_q] in *.
  - inversion Fv as [|h ? v1 ? Hh Fv1]; subst. destruct h as [g|g]; [|destruct Hh]. exists v1. split; [exact Fv1|].
    assert (Eg : g s = Ok s2).
    { destruct I as (E & _). unfold oend in E. cbn in E. destruct (g s) as [s3|e|n|] eqn:Eg; try discriminate.
      pose proof (ref_ok Hh Eg Hf) as K. congruence. }
    eapply omove_inv; [|exact I]. apply om_do. exact Eg.
  - inversion Fv as [|h ? v1 ? Hh Fv1]; subst. destruct h as [g|g]; [destruct Hh|]. cbn in Hh. subst g. exists v1. split; [exact Fv1|].
    eapply omove_inv; [|exact I]. apply om_send. exact Hl.
Qed.
Lemma psound_fine cap s' l o e : psound cap s' l o -> ~ pobreaks o e.
Proof.
  intros (v & Fv & (E & _)) Hb. destruct Hb as [f p s q e Hf]. cbn [po_w po_s po_q] in *.
  inversion Fv as [|h ? v1 ? Hh Fv1]; subst. destruct h as [g|g]; [|destruct Hh]. unfold oend in E. cbn in E.
  destruct (g s) as [s3|e'|n|] eqn:Eg; try discriminate. pose proof (ref_ok Hh Eg Hf). discriminate.
Qed.
Lemma psound_rest cap s' l o : psound cap s' l o -> (forall o', ~ pomove cap o o') ->
  length (po_q o) = Nat.min cap (length l) /\ (po_w o = [] <-> (length l <= cap)%nat).
Proof.
  destruct o as [ow ost oq]. intros (v & Fv & I) Hm. cbn [po_w po_s po_q] in *. pose proof I as (E & _).
  destruct (orest cap s' l _ I) as (A & B & _).
  - intros o' Ho. inversion Ho as [f p s s2 q Hf E1 E2|f p s q Hl E1 E2]; subst.
    + inversion Fv as [|? k ? u Hh Fv1]; subst. destruct k as [k|k]; [|destruct Hh]. eapply Hm.
      apply po_do. rewrite <- Hf. apply (ref_can Hh).
    + inversion Fv as [|? k ? u Hh Fv1]; subst. destruct k as [k|k]; [destruct Hh|]. eapply Hm.
      apply po_send. exact Hl.
  - intros e Ho. inversion Ho as [f p s q e' Hf E1 E2]; subst. unfold oend in E. cbn in E. rewrite Hf in E. discriminate.
  - cbn [o_q o_w] in *. split; [exact A|]. rewrite <- B. split.
    + intros Z. rewrite Z in Fv. inversion Fv. reflexivity.
    + intros Z. subst v. inversion Fv. reflexivity.
Qed.
Lemma sound_os cap s' l c os w' : pwmove cap (c, os) w' -> Forall (psound cap s' l) os -> Forall (psound cap s' l) (snd w') /\ length (snd w') = length os.
Proof.
  intros H F. inversion H; subst; cbn [snd]; [auto|].
  split; [|rewrite !app_length; reflexivity]. apply Forall_app in F. destruct F as (F1 & F2). inversion F2; subst.
  apply Forall_app. split; [exact F1|]. constructor; [|assumption]. eapply psound_move; eassumption.
Qed.
(** a pair all of whose executions end alike *)
Definition sure cap s0 s1 c : Prop := forall r, pexecutes cap c r -> r = PFinished s0 s1 [].
Lemma sure_rest cap s0 s1 c : sure cap s0 s1 c -> (forall c', ~ pmove cap c c') -> (forall e, ~ pbreaks c e) -> c = mkPConf [] s0 [] s1 [].
Proof.
  intros D Hm Hb. destruct (classic (pover c)) as [O|O].
  - pose proof (D _ (px_over cap c O)) as E. destruct c as [r rs v ws q]. destruct O as [O1 O2]. cbn in *. injection E as -> -> ->. subst. reflexivity.
  - pose proof (D _ (px_stuck cap c O Hm Hb)). discriminate.
Qed.
Lemma sure_world cap w r : pwexecutes cap w r -> forall s0 s1 s' l, sure cap s0 s1 (fst w) -> Forall (psound cap s' l) (snd w) ->
  if Nat.eqb (length (snd w)) 0 || Nat.leb (length l) cap
  then exists ms, length ms = length (snd w) /\ Forall (fun m => length m = length l) ms /\ r = PWFinished s0 s1 [] ms
  else r = PWDeadlock.
Proof.
  induction 1 as [[c os] (O1 & O2)|[c os] w' r Hm H IH|[c os] e Hb|[c os] Ho Hm Hb]; intros s0 s1 s' l D Fo; cbn [fst snd] in *.
  - pose proof (D _ (px_over cap c O1)) as E. injection E as -> -> ->.
    assert (R : Forall (fun o => (length l <= cap)%nat /\ length (po_q o) = length l) os).
    { rewrite Forall_forall in *. intros o Hi. pose proof (Fo o Hi) as Hs. pose proof (O2 o Hi) as Hz. destruct (psound_rest _ _ _ _ Hs) as (A & B).
      - intros o' Hm. destruct o as [ow s q]. cbn in Hz. subst ow. inversion Hm.
      - apply B in Hz. split; [exact Hz|]. rewrite A. lia. }
    destruct os as [|o os]; cbn [length Nat.eqb orb map]; [exists []; auto|].
    replace (Nat.leb (length l) cap) with true by (symmetry; apply Nat.leb_le; inversion R; tauto).
    exists (map po_q (o :: os)). split; [rewrite map_length; reflexivity|]. split; [|reflexivity].
    apply Forall_forall. intros m Hi. apply in_map_iff in Hi. destruct Hi as (u & <- & Hi). rewrite Forall_forall in R. apply R. exact Hi.
  - destruct (sound_os _ _ _ _ _ _ Hm Fo) as (B & C). rewrite <- C. apply (IH s0 s1 s' l); [|exact B].
    inversion Hm as [? c' ? Hp|]; subst; cbn [fst]; [|exact D]. intros r' Hr. apply D. eapply px_move; eassumption.
  - exfalso. inversion Hb; subst.
    + match goal with X : pbreaks _ _ |- _ => pose proof (D _ (px_ub cap c e X)); discriminate end.
    + rewrite Forall_forall in Fo. eapply psound_fine; [apply Fo; eassumption|eassumption].
  - assert (Q : c = mkPConf [] s0 [] s1 []).
    { apply (sure_rest cap); [exact D| |]; intros ? X; [eapply Hm; apply pwm_pair; exact X|eapply Hb; apply pwb_pair; exact X]. }
    destruct (Nat.eqb (length os) 0 || Nat.leb (length l) cap)%bool eqn:K; [exfalso|reflexivity].
    apply Ho. split; [rewrite Q; split; reflexivity|]. cbn [snd]. intros o Hi. apply orb_true_iff in K. destruct K as [K|K].
    + apply Nat.eqb_eq in K. destruct os; [destruct Hi|discriminate].
    + rewrite Forall_forall in Fo. apply (psound_rest cap s' l o (Fo o Hi)); [|apply Nat.leb_le; exact K].
      intros o' X. apply in_split in Hi. destruct Hi as (a & b & ->). eapply Hm. apply pwm_other. exact X.
Qed.

(** there is an execution *)
Definition ptodo w : nat := (length (p_r (fst w)) + length (p_w (fst w)) + list_sum (map (fun o => length (po_w o)) (snd w)))%nat.
Lemma pwmove_less cap w w' : pwmove cap w w' -> (ptodo w' < ptodo w)%nat.
Proof.
  destruct 1 as [c c' os H|c a o o' b H]; unfold ptodo; cbn [fst snd].
  - destruct H; cbn [p_r p_w length]; lia.
  - rewrite !map_app, !list_sum_app. cbn [map list_sum fold_right]. destruct H; cbn [po_w length]; lia.
Qed.
Lemma pwsome cap w : exists r, pwexecutes cap w r.
Proof.
  remember (ptodo w) as n eqn:E. revert w E. induction n as [n IH] using (well_founded_induction lt_wf). intros w ->.
  destruct (classic (exists w', pwmove cap w w')) as [(w' & H)|NM].
  { destruct (IH _ (pwmove_less _ _ _ H) w' eq_refl) as [r Hr]. exists r. eapply pwx_move; eauto. }
  destruct (classic (exists e, pwbreaks w e)) as [(e & H)|NB]; [exists (PWUndefined e); apply pwx_ub; exact H|].
  destruct (classic (pwover w)) as [O|O]; [eexists; apply pwx_over; exact O|].
  exists PWDeadlock. apply pwx_stuck; [exact O| |]; intros ? X; eauto.
Qed.
End World.

Section Main.
Variables (F : flow R) (s : settings R) (n k : Z) (cap : nat).
Let nx := s_nx s.
Let ny := s_ny s.
Hypothesis P : proper s.
Hypothesis Hn : s_nx s / 2 * s_ny s < 2147483648.
Hypothesis Hc : 0 <= n < 4294967296.
Hypothesis Hq : (IZR n <= s_Tfinal s / s_dt s < IZR n + 1)%R.
Hypothesis Hk : 1 <= k.

Lemma hworld_exists procs kmix size : exists r, hyb_world (S (S procs)) k kmix size cap F s r.
Proof.
  destruct (ProofsRefMain.setup_ok s) as (m & R0 & _).
  match goal with |- exists r, @?Q r => assert (G : forall w, (forall r, pwexecutes cap w r -> Q r) -> exists r, Q r) end.
  { intros w H. destruct (pwsome cap w) as [r Hr]. exists r. apply H. exact Hr. }
  eapply G. intros r Hr. exists n, m. split; [apply step_count_R; assumption|]. split; [exact R0|]. exact Hr.
Qed.
Lemma hworld_double procs : Z.Even (s_nx s) -> 0 < print_every s n \/ n = 0 ->
  forall r, hyb_world (S (S procs)) k 1 MPI_DOUBLE cap F s r ->
    if ((Z.of_nat procs =? 0) || (5 * n <=? Z.of_nat cap))%bool
    then exists m out p ms m' out', r = PWFinished (m, out) p [] ms /\
      main_ true F s = Ok (m', out') /\ same_data nx ny m m' /\ same_blocks nx ny out out' /\
      length ms = procs /\ forall q, In q ms -> Z.of_nat (length q) = 5 * n
    else r = PWDeadlock.
Proof.
  intros Ev He r (n' & m0 & En & Es & H). cbv zeta in H.
  destruct (hyb_double F s n k cap P Hn Hc Hq Hk Ev He) as ((r0 & n0 & mm & En0 & Es0 & H0) & G).
  rewrite En in En0. injection En0 as <-. rewrite Es in Es0. injection Es0 as <-.
  destruct (G r0 (ex_intro _ n' (ex_intro _ m0 (conj En (conj Es H0))))) as (m & out & p & m' & out' & -> & R' & D & Bl).
  assert (SU : sure cap (m, out) p (mkPConf (upto (hyb_root_step k 1 F s (print_every s n')) 0 (Z.to_nat n')) (m0, [(0%R, m0)])
     (upto (hyb_helper_step k MPI_DOUBLE F s) 0 (Z.to_nat n')) (m0, [(0%R, m0)]) [])).
  { intros r1 H1. destruct (mpi_like_openmp F s n cap P Hn Ev Hc Hq He) as ((q0 & c0 & Ec & Hx) & Hall).
    destruct (Hall q0 (ex_intro _ c0 (conj Ec Hx))) as (a1 & a2 & a3 & a4 & a5 & -> & _).
    unfold mpi_start in Ec. rewrite En, Es in Ec. cbn [bind] in Ec. injection Ec as <-. apply keeps_whole in Hx.
    assert (U : forall r2, pexecutes cap (mkPConf (upto (hyb_root_step k 1 F s (print_every s n')) 0 (Z.to_nat n')) (m0, [(0%R, m0)])
       (upto (hyb_helper_step k MPI_DOUBLE F s) 0 (Z.to_nat n')) (m0, [(0%R, m0)]) []) r2 -> r2 = PFinished (a1, a2) a3 []).
    { intros r2 H2. eapply (sim_ok cap _ r2 H2); cbn [p_r p_w p_rs p_ws p_q]; [| |exact Hx].
      - apply forall2_upto. intros t. apply root_sim. exact Hk.
      - apply forall2_upto. intros t. apply helper_sim; [exact Hk|apply (nx_range s P)]. }
    rewrite (U _ H1). symmetry. apply U. exact H0. }
  rewrite (step_count_R s n Hc Hq) in En. injection En as <-.
  destruct (ProofsRefMain.setup_ok s) as (mz & Rz & A & _). rewrite Es in Rz. injection Rz as <-.
  destruct (helper_count F s P MPI_DOUBLE (ProofsRefHyb.even_half s Ev) (Z.to_nat n) 0 m0 [(0%R, m0)] A) as (p' & l & Wl & Ll).
  assert (FO : Forall (psound cap p' l) (repeat (mkPOther (upto (hyb_helper_step k MPI_DOUBLE F s) 0 (Z.to_nat n)) (m0, [(0%R, m0)]) []) procs)).
  { apply Forall_forall. intros u Hu. apply repeat_spec in Hu. subst u. exists (upto (helper_step MPI_DOUBLE F s) 0 (Z.to_nat n)). cbn [po_w po_s po_q]. split.
    - apply forall2_upto. intros t. apply helper_sim; [exact Hk|apply (nx_range s P)].
    - split; [|cbn; lia]. unfold oend. cbn [o_w o_s o_q app]. rewrite Wl. reflexivity. }
  pose proof (sure_world cap _ r H (m, out) p p' l SU FO) as W. cbn [snd] in W. rewrite repeat_length, Ll in W.
  replace (Nat.eqb procs 0 || Nat.leb (5 * Z.to_nat n) cap)%bool with ((Z.of_nat procs =? 0) || (5 * n <=? Z.of_nat cap))%bool in W.
  2:{ f_equal; apply eq_true_iff_eq; rewrite ?Z.eqb_eq, ?Nat.eqb_eq, ?Z.leb_le, ?Nat.leb_le; lia. }
  destruct ((Z.of_nat procs =? 0) || (5 * n <=? Z.of_nat cap))%bool; [|exact W].
  destruct W as (ms & L1 & L2 & ->). exists m, out, p, ms, m', out'. repeat (split; [assumption || reflexivity|]).
  intros q Hi. rewrite Forall_forall in L2. rewrite (L2 q Hi). lia.
Qed.
Lemma hworld_bad procs kmix size r : 1 <= n -> size = MPI_FLOAT \/ Z.Odd (s_nx s) -> hyb_world (S (S procs)) k kmix size cap F s r -> exists e, r = PWUndefined e.
Proof.
  intros N1 Hs (n' & m0 & En & Es & H). cbv zeta in H. eapply doomed_world; [exact H|]. cbn [fst]. intros r1 H1.
  apply (hyb_bad F s n k cap P Hn Hc Hq Hk kmix size r1 N1 Hs). exists n', m0. auto.
Qed.
Lemma hworld_races procs : 2 <= k -> 1 <= n -> Z.Even (s_nx s) -> hyb_world (S (S procs)) k k MPI_DOUBLE cap F s (PWUndefined DataRace).
Proof.
  intros K2 N1 Ev. destruct (hyb_races F s n k cap P Hn Hc Hq Hk K2 N1 Ev) as (n' & m0 & En & Es & H).
  exists n', m0. split; [exact En|]. split; [exact Es|]. cbv zeta. eapply pair_world; [exact H|reflexivity].
Qed.
Lemma hworld_alone kmix size : 1 <= n ->
  (exists r, hyb_world 1 k kmix size cap F s r) /\ forall r, hyb_world 1 k kmix size cap F s r -> r = PWAborted.
Proof.
  intros N1. destruct (ProofsRefMain.setup_ok s) as (m & R0 & A & _). destruct (Z.to_nat n) as [|n'] eqn:En; [lia|].
  destruct (root_start_ok F s P 0 m A) as (ma & Ra & _). pose proof (root_start_ref F s k Hk 0) as RF.
  assert (R1 : on_memr (hyb_root_start k F s 0) (m, [(0%R, m)]) (Ok (ma, [(0%R, m)]))).
  { exists (Ok ma). split; [|reflexivity]. rewrite <- Ra. apply (ref_can RF). }
  split.
  - eexists. exists n, m. split; [apply step_count_R; assumption|]. split; [exact R0|]. cbv zeta. rewrite En. cbn [upto].
    unfold hyb_root_step at 1. cbv zeta. cbn [app]. eapply pal_do; [exact R1|]. apply pal_recv.
  - intros r (n0 & m0 & E0 & Es & H). rewrite (step_count_R s n Hc Hq) in E0. injection E0 as <-. rewrite R0 in Es. injection Es as <-.
    cbv zeta in H. rewrite En in H. cbn [upto] in H. unfold hyb_root_step at 1 in H. cbv zeta in H. cbn [app] in H.
    inversion H as [|f p st st' r' Hf Hr|f p st e Hf|]; subst.
    + inversion Hr. reflexivity.
    + exfalso. destruct Hf as (o & Ho & Eo). cbn [fst] in Ho. pose proof (ref_ok RF Ra Ho) as K. subst o. discriminate.
Qed.
End Main.

Lemma hybn_whole (F : flow R) (s : settings R) n procs k cap : proper s -> s_nx s / 2 * s_ny s < 2147483648 -> Z.Even (s_nx s) ->
  0 <= n < 4294967296 -> (IZR n <= s_Tfinal s / s_dt s < IZR n + 1)%R -> 0 < print_every s n \/ n = 0 -> 1 <= k ->
  (2 <= procs)%nat -> procs = 2%nat \/ 5 * n <= Z.of_nat cap ->
  (exists r, hyb_world procs k 1 MPI_DOUBLE cap F s r) /\
  forall r, hyb_world procs k 1 MPI_DOUBLE cap F s r -> exists m out p ms m' out', r = PWFinished (m, out) p [] ms /\
    main_ true F s = Ok (m', out') /\ same_data (s_nx s) (s_ny s) m m' /\ same_blocks (s_nx s) (s_ny s) out out' /\
    (length ms + 2)%nat = procs /\ forall q, In q ms -> Z.of_nat (length q) = 5 * n.
Proof.
  intros P Hn Ev Hc Hq He Hk Hp Hcap. destruct procs as [|[|procs]]; [lia..|]. split; [apply (hworld_exists F s n k cap Hc Hq)|].
  intros r H. pose proof (hworld_double F s n k cap P Hn Hc Hq Hk procs Ev He r H) as G.
  assert (T : ((Z.of_nat procs =? 0) || (5 * n <=? Z.of_nat cap))%bool = true).
  { apply orb_true_iff. rewrite Z.eqb_eq, Z.leb_le. lia. }
  rewrite T in G. destruct G as (m & out & p & ms & m' & out' & -> & A & B & C & L & K). exists m, out, p, ms, m', out'.
  repeat (split; [assumption || reflexivity|]). split; [lia|exact K].
Qed.
Lemma hybn_stuck (F : flow R) (s : settings R) n procs k cap r : proper s -> s_nx s / 2 * s_ny s < 2147483648 -> Z.Even (s_nx s) ->
  0 <= n < 4294967296 -> (IZR n <= s_Tfinal s / s_dt s < IZR n + 1)%R -> 0 < print_every s n \/ n = 0 -> 1 <= k ->
  (3 <= procs)%nat -> Z.of_nat cap < 5 * n -> hyb_world procs k 1 MPI_DOUBLE cap F s r -> r = PWDeadlock.
Proof.
  intros P Hn Ev Hc Hq He Hk Hp Hcap H. destruct procs as [|[|procs]]; [lia..|].
  pose proof (hworld_double F s n k cap P Hn Hc Hq Hk procs Ev He r H) as G.
  replace ((Z.of_nat procs =? 0) || (5 * n <=? Z.of_nat cap))%bool with false in G; [exact G|]. symmetry. apply orb_false_iff. split; [apply Z.eqb_neq|apply Z.leb_gt]; lia.
Qed.
Lemma hybn_shipped (F : flow R) (s : settings R) n procs k kmix size cap : proper s -> s_nx s / 2 * s_ny s < 2147483648 ->
  1 <= n < 4294967296 -> (IZR n <= s_Tfinal s / s_dt s < IZR n + 1)%R -> 1 <= k -> (2 <= procs)%nat -> size = MPI_FLOAT \/ Z.Odd (s_nx s) ->
  (exists r, hyb_world procs k kmix size cap F s r) /\ forall r, hyb_world procs k kmix size cap F s r -> exists e, r = PWUndefined e.
Proof.
  intros P Hn Hc Hq Hk Hp Hs. destruct procs as [|[|procs]]; [lia..|]. split; [apply (hworld_exists F s n k cap ltac:(lia) Hq)|].
  intros r H. apply (hworld_bad F s n k cap P Hn ltac:(lia) Hq Hk procs kmix size r); [lia|exact Hs|exact H].
Qed.
Lemma hybn_races (F : flow R) (s : settings R) n procs k cap : proper s -> s_nx s / 2 * s_ny s < 2147483648 -> Z.Even (s_nx s) ->
  1 <= n < 4294967296 -> (IZR n <= s_Tfinal s / s_dt s < IZR n + 1)%R -> 2 <= k -> (2 <= procs)%nat -> hyb_world procs k k MPI_DOUBLE cap F s (PWUndefined DataRace).
Proof.
  intros P Hn Ev Hc Hq Hk Hp. destruct procs as [|[|procs]]; [lia..|]. apply (hworld_races F s n k cap P Hn ltac:(lia) Hq ltac:(lia) procs Hk); [lia|exact Ev].
Qed.
Lemma hybn_alone (F : flow R) (s : settings R) n k kmix size cap : proper s ->
  1 <= n < 4294967296 -> (IZR n <= s_Tfinal s / s_dt s < IZR n + 1)%R -> 1 <= k ->
  (exists r, hyb_world 1 k kmix size cap F s r) /\ forall r, hyb_world 1 k kmix size cap F s r -> r = PWAborted.
Proof. intros P Hc Hq Hk. apply (hworld_alone F s n k cap P ltac:(lia) Hq Hk). lia. Qed.
(** two processes: the program of ModelRefOmp *)
Lemma two_up {S M} cap (c : pconf S M) r : pexecutes cap c r -> pwexecutes cap (c, []) (as_world r).
Proof.
  induction 1 as [c O|c c' r Hm H IH|c e Hb|c Ho Hm Hb]; cbn [as_world].
  - apply (pwx_over cap (c, [])). split; [exact O|intros o []].
  - eapply pwx_move; [apply pwm_pair; exact Hm|exact IH].
  - apply pwx_ub, pwb_pair. exact Hb.
  - apply pwx_stuck.
    + intros (O & _). exact (Ho O).
    + intros w X. inversion X as [? ? ? Y|? a ? ? b Y E]; subst; [exact (Hm _ Y)|destruct a; discriminate].
    + intros e X. inversion X as [? ? ? Y|? ? ? ? I Y]; subst; [exact (Hb _ Y)|destruct I].
Qed.
Lemma two_down {S M} cap (w : pconf S M * list (pother S M)) r : pwexecutes cap w r -> snd w = [] -> exists r', pexecutes cap (fst w) r' /\ r = as_world r'.
Proof.
  induction 1 as [[c os] (O1 & O2)|[c os] w' r Hm H IH|[c os] e Hb|[c os] Ho Hm Hb]; intros E; cbn [fst snd] in *; subst os.
  - eexists. split; [apply px_over; exact O1|reflexivity].
  - inversion Hm as [? c' ? Y|? a ? ? b Y E]; subst; [|destruct a; discriminate]. destruct (IH eq_refl) as (r' & Hr & ->).
    exists r'. split; [eapply px_move; eassumption|reflexivity].
  - inversion Hb as [? ? ? Y|? ? ? ? I Y]; subst; [|destruct I]. eexists. split; [apply px_ub; exact Y|reflexivity].
  - exists PDeadlock. split; [|reflexivity]. apply px_stuck.
    + intros O. apply Ho. split; [exact O|intros o []].
    + intros c' X. eapply Hm. apply pwm_pair. exact X.
    + intros e X. eapply Hb. apply pwb_pair. exact X.
Qed.
Lemma hybn_two {T} {NT : Num T} {TG : Trig T} k kmix size cap (F : flow T) (s : settings T) r :
  hyb_world 2 k kmix size cap F s r <-> exists r', hyb_runs k kmix size cap F s r' /\ r = as_world r'.
Proof.
  split.
  - intros (n & m & En & Es & H). cbv zeta in H. cbn [repeat] in H. destruct (two_down _ _ _ H eq_refl) as (r' & Hr & ->). exists r'. split; [exists n, m; auto|reflexivity].
  - intros (r' & (n & m & En & Es & H) & ->). exists n, m. split; [exact En|]. split; [exact Es|]. cbv zeta. cbn [repeat]. apply two_up. exact H.
Qed.
