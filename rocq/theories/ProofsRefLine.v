(** The command line of the programs with threads. *)
From Coq Require Import ZArith List Lia Reals String Ascii Decimal DecimalString DecimalPos DecimalN.
From Verif Require Import Base Num NumB64 ModelVec ModelRefMath ModelRefMem ModelRef ModelRefMpi ModelRefOmp SpecRefRun SpecRefMpi SpecRefOmp ProofsRefMpiApi ProofsRefOmp ProofsRefHyb.
Open Scope Z_scope.

Lemma digits_pos d : forall p, digits (Z.pos p) (NilEmpty.string_of_uint d) = Z.pos (Pos.of_uint_acc d p).
Proof.
  induction d as [|d IH|d IH|d IH|d IH|d IH|d IH|d IH|d IH|d IH|d IH]; intros p; [reflexivity|..]; cbn [NilEmpty.string_of_uint Pos.of_uint_acc]; rewrite <- IH.
  - change (digits (10 * Z.pos p + 0) (NilEmpty.string_of_uint d) = digits (Z.pos (10 * p)) (NilEmpty.string_of_uint d)). f_equal; lia.
  - change (digits (10 * Z.pos p + 1) (NilEmpty.string_of_uint d) = digits (Z.pos (1 + 10 * p)) (NilEmpty.string_of_uint d)). f_equal; lia.
  - change (digits (10 * Z.pos p + 2) (NilEmpty.string_of_uint d) = digits (Z.pos (2 + 10 * p)) (NilEmpty.string_of_uint d)). f_equal; lia.
  - change (digits (10 * Z.pos p + 3) (NilEmpty.string_of_uint d) = digits (Z.pos (3 + 10 * p)) (NilEmpty.string_of_uint d)). f_equal; lia.
  - change (digits (10 * Z.pos p + 4) (NilEmpty.string_of_uint d) = digits (Z.pos (4 + 10 * p)) (NilEmpty.string_of_uint d)). f_equal; lia.
  - change (digits (10 * Z.pos p + 5) (NilEmpty.string_of_uint d) = digits (Z.pos (5 + 10 * p)) (NilEmpty.string_of_uint d)). f_equal; lia.
  - change (digits (10 * Z.pos p + 6) (NilEmpty.string_of_uint d) = digits (Z.pos (6 + 10 * p)) (NilEmpty.string_of_uint d)). f_equal; lia.
  - change (digits (10 * Z.pos p + 7) (NilEmpty.string_of_uint d) = digits (Z.pos (7 + 10 * p)) (NilEmpty.string_of_uint d)). f_equal; lia.
  - change (digits (10 * Z.pos p + 8) (NilEmpty.string_of_uint d) = digits (Z.pos (8 + 10 * p)) (NilEmpty.string_of_uint d)). f_equal; lia.
  - change (digits (10 * Z.pos p + 9) (NilEmpty.string_of_uint d) = digits (Z.pos (9 + 10 * p)) (NilEmpty.string_of_uint d)). f_equal; lia.
Qed.
Lemma digits_dec d : digits 0 (NilEmpty.string_of_uint d) = Z.of_N (Pos.of_uint d).
Proof. induction d; cbn [NilEmpty.string_of_uint Pos.of_uint]; [reflexivity|exact IHd|..]; cbn; apply digits_pos. Qed.
Lemma strtol_dec d : strtol (NilEmpty.string_of_uint d) = Z.min (2 ^ 63 - 1) (Z.of_N (Pos.of_uint d)).
Proof. rewrite <- digits_dec. destruct d; reflexivity. Qed.
Lemma decimal_read n : 0 <= n < 2 ^ 63 -> strtol (decimal n) = n.
Proof.
  intros H. unfold decimal. rewrite strtol_dec. change (Pos.of_uint (N.to_uint (Z.to_N n))) with (N.of_uint (N.to_uint (Z.to_N n))).
  rewrite DecimalN.Unsigned.of_to, Z2N.id by lia. lia.
Qed.
Lemma to_int_small n : - 2 ^ 31 <= n < 2 ^ 31 -> to_int n = n.
Proof. intros H. unfold to_int. rewrite Z.mod_small by lia. lia. Qed.
Lemma decimal_threads n k : 1 <= n < 2 ^ 31 -> num_threads (to_int (strtol (decimal n))) k <-> k = n.
Proof.
  intros H. rewrite decimal_read by lia. rewrite to_int_small by lia. unfold num_threads. replace (1 <=? n) with true by lia. reflexivity.
Qed.
Section Program.
Context {T : Type} {NT : Num T} {TG : Trig T}.
Lemma openmp_line n more (F : flow T) (s : settings T) r : 1 <= n < 2 ^ 31 -> openmp_program (decimal n :: more) F s r <-> omp_main n n F s r.
Proof.
  intros H. cbn [openmp_program]. split.
  - intros (k & Hk & K). apply decimal_threads in Hk; [subst; exact K|exact H].
  - intros K. exists n. split; [apply decimal_threads; [exact H|reflexivity]|exact K].
Qed.
Lemma hybrid_line n size cap (F : flow T) (s : settings T) r : 1 <= n < 2 ^ 31 -> hybrid_program size cap [decimal n] F s (Some r) <-> hyb_runs n n size cap F s r.
Proof.
  intros H. cbn [hybrid_program]. split.
  - intros (k & r' & Hk & K & E). injection E as <-. apply decimal_threads in Hk; [subst; exact K|exact H].
  - intros K. exists n, r. split; [apply decimal_threads; [exact H|reflexivity]|auto].
Qed.
Lemma zero_threads a (F : flow T) (s : settings T) r k : to_int (strtol a) <= 0 -> 1 <= k -> omp_main k k F s r -> openmp_program [a] F s r.
Proof. intros H Hk K. exists k. split; [|exact K]. unfold num_threads. replace (1 <=? to_int (strtol a)) with false by lia. exact Hk. Qed.
Lemma minus_read n : 0 <= n <= 2 ^ 31 -> to_int (strtol (String "-"%char (decimal n))) = - n.
Proof.
  intros H. change (strtol (String "-"%char (decimal n))) with (Z.max (- 2 ^ 63) (- digits 0 (decimal n))). unfold decimal. rewrite digits_dec.
  change (Pos.of_uint (N.to_uint (Z.to_N n))) with (N.of_uint (N.to_uint (Z.to_N n))). rewrite DecimalN.Unsigned.of_to, Z2N.id by lia.
  rewrite Z.max_r by lia. apply to_int_small. lia.
Qed.
Lemma minus_threads n more (F : flow T) (s : settings T) r : 0 <= n <= 2 ^ 31 ->
  openmp_program (String "-"%char (decimal n) :: more) F s r <-> exists k, 1 <= k /\ omp_main k k F s r.
Proof. intros H. unfold openmp_program, num_threads. rewrite minus_read by exact H. replace (1 <=? - n) with false by lia. reflexivity. Qed.
Lemma hybrid_usage args size cap (F : flow T) (s : settings T) r : length args <> 1%nat -> hybrid_program size cap args F s r <-> r = None.
Proof. destruct args as [|a [|b l]]; cbn; [reflexivity|congruence|reflexivity]. Qed.
End Program.
Lemma lines : strtol "4 threads" = 4 /\ strtol "all" = 0 /\ strtol "-2" = -2 /\ to_int (strtol "4294967298") = 2.
Proof. repeat split; reflexivity. Qed.
Lemma openmp_threads {T} {NT : Num T} {TG : Trig T} (F : flow T) (s : settings T) k : 1 <= k ->
  omp_main k 1 F s (main_ true F s) /\ forall r, omp_main k 1 F s r -> alike r (main_ true F s).
Proof.
  intros Hk. split; [apply omp_main_some; lia|]. intros r H. destruct (omp_main_like F s k r Hk H) as [->|(e & e' & A & B)]; [left; reflexivity|right; eauto].
Qed.
Lemma openmp_races (F : flow R) (s : settings R) n k : proper s -> 2 <= k -> 1 <= n < 4294967296 -> (IZR n <= s_Tfinal s / s_dt s < IZR n + 1)%R ->
  omp_main k k F s (UB DataRace).
Proof. intros P. apply omp_main_races. exact P. Qed.
Lemma hyb_defined (F : flow R) (s : settings R) n k cap : proper s -> s_nx s / 2 * s_ny s < 2147483648 -> Z.Even (s_nx s) ->
  0 <= n < 4294967296 -> (IZR n <= s_Tfinal s / s_dt s < IZR n + 1)%R -> 0 < print_every s n \/ n = 0 -> 1 <= k ->
  (exists r, hyb_runs k 1 MPI_DOUBLE cap F s r) /\
  forall r, hyb_runs k 1 MPI_DOUBLE cap F s r -> exists m out p m' out', r = PFinished (m, out) p [] /\
    main_ true F s = Ok (m', out') /\ same_data (s_nx s) (s_ny s) m m' /\ same_blocks (s_nx s) (s_ny s) out out'.
Proof. intros P Hn Ev Hc Hq He Hk. apply (hyb_double F s n k cap P Hn Hc Hq Hk Ev He). Qed.
Lemma hyb_undefined (F : flow R) (s : settings R) n k kmix size cap : proper s -> s_nx s / 2 * s_ny s < 2147483648 ->
  1 <= n < 4294967296 -> (IZR n <= s_Tfinal s / s_dt s < IZR n + 1)%R -> 1 <= k -> 1 <= kmix -> size = MPI_FLOAT \/ Z.Odd (s_nx s) ->
  (exists r, hyb_runs k kmix size cap F s r) /\ forall r, hyb_runs k kmix size cap F s r -> exists e, r = PUndefined e.
Proof.
  intros P Hn Hc Hq Hk Hx Hs. split; [apply (hyb_exists F s n k cap P Hn ltac:(lia) Hq Hk); (assumption || lia)|].
  intros r. apply (hyb_bad F s n k cap P Hn ltac:(lia) Hq Hk); (assumption || lia).
Qed.
Lemma hyb_racing (F : flow R) (s : settings R) n k cap : proper s -> s_nx s / 2 * s_ny s < 2147483648 -> Z.Even (s_nx s) ->
  1 <= n < 4294967296 -> (IZR n <= s_Tfinal s / s_dt s < IZR n + 1)%R -> 2 <= k -> hyb_runs k k MPI_DOUBLE cap F s (PUndefined DataRace).
Proof. intros P Hn Ev Hc Hq Hk. apply (hyb_races F s n k cap P Hn); (assumption || lia). Qed.
Lemma line_case (F : flow R) : openmp_program [decimal 4] F (mpi_s 6) (UB DataRace) /\ decimal 4 = "4"%string /\ decimal 120 = "120"%string.
Proof.
  split; [|split; reflexivity]. apply (openmp_line 4 []); [lia|]. destruct (mpi_case 6 ltac:(lia)) as (P & _ & Q & _).
  apply (omp_main_races F (mpi_s 6) P 4 8); (lia || assumption).
Qed.
Lemma shipped_case (F : flow R) : exists r, hybrid_program MPI_FLOAT 2 [decimal 4] F (mpi_s 6) (Some r) /\ exists e, r = PUndefined e.
Proof.
  destruct (mpi_case 6 ltac:(lia)) as (P & Hn & Q & _).
  destruct (hyb_undefined F (mpi_s 6) 8 4 4 MPI_FLOAT 2 P Hn ltac:(lia) Q ltac:(lia) ltac:(lia) (or_introl eq_refl)) as ((r & Hr) & Hall).
  exists r. split; [apply hybrid_line; [lia|exact Hr]|apply Hall; exact Hr].
Qed.
Lemma no_argument {T} {NT : Num T} {TG : Trig T} (F : flow T) (s : settings T) r : openmp_program [] F s r <-> r = UB OutOfBounds.
Proof. reflexivity. Qed.
Lemma six_case : proper (mpi_s 6) /\ s_nx (mpi_s 6) / 2 * s_ny (mpi_s 6) < 2147483648 /\
  (IZR 8 <= s_Tfinal (mpi_s 6) / s_dt (mpi_s 6) < IZR 8 + 1)%R /\ 0 < print_every (mpi_s 6) 8.
Proof. apply mpi_case. lia. Qed.

(** *** arguments with white space, a sign and trailing text *)
Lemma blank_space c : In c blanks -> is_space c = true.
Proof. unfold blanks. cbn [In]. intros [<-|[<-|[<-|[<-|[<-|[<-|[]]]]]]]; reflexivity. Qed.
Lemma other_space c : ~ In c blanks -> is_space c = false.
Proof. intros H. destruct (is_space c) eqn:E; [|reflexivity]. exfalso. apply H. destruct c as [[] [] [] [] [] [] [] []]; try discriminate E; cbn; auto 10. Qed.
Lemma skip_blank ws a : all_blank ws -> skip_space (ws ++ a) = skip_space a.
Proof.
  unfold all_blank. induction ws as [|c ws IH]; cbn [list_ascii_of_string append skip_space]; intros H; [reflexivity|]. inversion H as [|? ? Hc Hw]; subst.
  rewrite (blank_space c Hc). apply IH. exact Hw.
Qed.
Lemma digit_no c : ~ In c numerals -> ((0 <=? Z.of_nat (nat_of_ascii c) - 48) && (Z.of_nat (nat_of_ascii c) - 48 <=? 9))%bool = false.
Proof.
  intros H. destruct ((0 <=? Z.of_nat (nat_of_ascii c) - 48) && (Z.of_nat (nat_of_ascii c) - 48 <=? 9))%bool eqn:E; [|reflexivity]. exfalso. apply H.
  destruct c as [[] [] [] [] [] [] [] []]; try discriminate E; cbn; auto 20.
Qed.
Lemma digits_end tl acc : begins_outside numerals tl -> digits acc tl = acc.
Proof. destruct tl as [|c tl]; [reflexivity|]. cbn [begins_outside]. intros H. cbn [digits]. rewrite (digit_no c H). reflexivity. Qed.
Lemma digits_tail tl : begins_outside numerals tl -> forall d acc, digits acc (NilEmpty.string_of_uint d ++ tl) = digits acc (NilEmpty.string_of_uint d).
Proof.
  intros H. induction d as [|d IH|d IH|d IH|d IH|d IH|d IH|d IH|d IH|d IH|d IH]; intros acc; cbn [NilEmpty.string_of_uint append]; [apply digits_end; exact H|..]; cbn [digits];
  match goal with |- (if ?b then _ else _) = _ => change b with true end; cbv iota; apply IH.
Qed.
Lemma read_digits n : 0 <= n -> digits 0 (decimal n) = n.
Proof.
  intros H. unfold decimal. rewrite digits_dec. change (Pos.of_uint (N.to_uint (Z.to_N n))) with (N.of_uint (N.to_uint (Z.to_N n))). rewrite DecimalN.Unsigned.of_to, Z2N.id by lia. reflexivity.
Qed.
Lemma strtol_first d tl : d <> Nil -> strtol (NilEmpty.string_of_uint d ++ tl) = Z.min (2 ^ 63 - 1) (digits 0 (NilEmpty.string_of_uint d ++ tl)).
Proof. destruct d; intros H; [congruence|..]; reflexivity. Qed.
Lemma uint_some n : N.to_uint n <> Nil.
Proof. destruct n as [|p]; [discriminate|]. cbn [N.to_uint]. apply DecimalPos.Unsigned.to_uint_nonnil. Qed.
Lemma typed_read ws sign n tl : all_blank ws -> sign = EmptyString \/ sign = "+"%string -> 0 <= n < 2 ^ 63 -> begins_outside numerals tl ->
  strtol (ws ++ sign ++ decimal n ++ tl) = n.
Proof.
  intros Hw Hs Hn Ht. assert (E : strtol (ws ++ sign ++ decimal n ++ tl) = strtol (sign ++ decimal n ++ tl)) by (unfold strtol; rewrite (skip_blank ws _ Hw); reflexivity).
  rewrite E. clear E. assert (V : digits 0 (decimal n ++ tl) = n) by (unfold decimal; rewrite digits_tail by exact Ht; apply read_digits; lia).
  destruct Hs as [->| ->].
  - change (EmptyString ++ decimal n ++ tl)%string with (decimal n ++ tl)%string. unfold decimal at 1. rewrite strtol_first by apply uint_some. fold (decimal n). rewrite V. lia.
  - change (strtol ("+" ++ decimal n ++ tl)) with (Z.min (2 ^ 63 - 1) (digits 0 (decimal n ++ tl))). rewrite V. lia.
Qed.
Lemma untyped_read ws tl : all_blank ws -> begins_outside ("+"%char :: "-"%char :: blanks ++ numerals) tl -> strtol (ws ++ tl) = 0.
Proof.
  intros Hw Ht. unfold strtol. rewrite (skip_blank ws _ Hw). destruct tl as [|c tl]; [reflexivity|]. cbn [begins_outside] in Ht.
  assert (A : ~ In c blanks) by (intros Q; apply Ht; right; right; apply in_or_app; auto). assert (B : ~ In c numerals) by (intros Q; apply Ht; right; right; apply in_or_app; auto).
  cbn [skip_space]. rewrite (other_space c A). destruct (Ascii.eqb_spec c "-") as [->|_]; [exfalso; apply Ht; right; left; reflexivity|]. destruct (Ascii.eqb_spec c "+") as [->|_]; [exfalso; apply Ht; left; reflexivity|].
  cbn [digits]. rewrite (digit_no c B). reflexivity.
Qed.
Lemma typed_line {T} {NT : Num T} {TG : Trig T} ws sign n tl more (F : flow T) (s : settings T) r : all_blank ws -> sign = EmptyString \/ sign = "+"%string -> 1 <= n < 2 ^ 31 -> begins_outside numerals tl ->
  openmp_program ((ws ++ sign ++ decimal n ++ tl)%string :: more) F s r <-> omp_main n n F s r.
Proof.
  intros Hw Hs Hn Ht. cbn [openmp_program]. rewrite (typed_read ws sign n tl Hw Hs ltac:(lia) Ht), to_int_small by lia. unfold num_threads. replace (1 <=? n) with true by lia. split.
  - intros (k & -> & K). exact K.
  - intros K. exists n. auto.
Qed.
Lemma untyped_line {T} {NT : Num T} {TG : Trig T} ws tl more (F : flow T) (s : settings T) r : all_blank ws -> begins_outside ("+"%char :: "-"%char :: blanks ++ numerals) tl ->
  openmp_program ((ws ++ tl)%string :: more) F s r <-> exists k, 1 <= k /\ omp_main k k F s r.
Proof. intros Hw Ht. cbn [openmp_program]. rewrite (untyped_read ws tl Hw Ht). reflexivity. Qed.
Lemma typed_case : all_blank (String "009" (String "013" " ")) /\ begins_outside numerals " threads" /\ begins_outside ("+"%char :: "-"%char :: blanks ++ numerals) "all".
Proof.
  split; [unfold all_blank; cbn [list_ascii_of_string]; repeat (apply Forall_cons; [cbn; auto 10|]); apply Forall_nil|]. split; cbn; intros H; repeat destruct H as [H|H]; try discriminate H; exact H.
Qed.
