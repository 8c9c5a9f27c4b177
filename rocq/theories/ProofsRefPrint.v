(** The output files of the reference programs. *)
From Coq Require Import ZArith List String Ascii Bool Lia Reals Lra.
From Verif Require Import Base Num NumB64 ModelVec ModelRefMath ModelRefMem ModelRef ModelRefPrint SpecRefRun SpecRefPrint
  ProofsBase ProofsGridProps ProofsRefUpd ProofsRefMain ProofsRefReal ProofsRefCudaReal.
Open Scope Z_scope.

(** *** digits *)
Lemma digit_nat d : 0 <= d < 10 -> nat_of_ascii (digit d) = (48 + Z.to_nat d)%nat.
Proof. intros. unfold digit, chr. apply nat_ascii_embedding. lia. Qed.
Lemma digit_is d : 0 <= d < 10 -> is_digit (digit d) = true.
Proof. intros. unfold is_digit. rewrite digit_nat by assumption. apply andb_true_iff. split; apply Nat.leb_le; lia. Qed.
Lemma value_acc l : forall a, fold_left (fun a c => 10 * a + (Z.of_nat (nat_of_ascii c) - 48)) l a = a * 10 ^ Z.of_nat (length l) + value_of l.
Proof.
  unfold value_of. induction l as [|c l IH]; intros a; [cbn; lia|]. cbn [fold_left length]. rewrite IH, (IH (10 * 0 + _)).
  rewrite Nat2Z.inj_succ, Z.pow_succ_r by lia. ring.
Qed.
Lemma value_cons d l : 0 <= d < 10 -> value_of (digit d :: l) = d * 10 ^ Z.of_nat (length l) + value_of l.
Proof. intros H. unfold value_of at 1. cbn [fold_left]. rewrite value_acc, digit_nat by assumption. f_equal. f_equal. lia. Qed.
Lemma digits_from_spec fuel : forall n acc, 0 <= n < 2 ^ Z.of_nat fuel -> forallb is_digit acc = true ->
  let l := digits_from fuel n acc in forallb is_digit l = true /\ value_of l = n * 10 ^ Z.of_nat (length acc) + value_of acc /\ (fuel <> 0%nat -> l <> []).
Proof.
  induction fuel as [|fuel IH]; intros n acc Hn Ha; cbn [digits_from].
  - cbn in Hn. replace n with 0 by lia. split; [exact Ha|]. split; [lia|congruence].
  - assert (Hm : 0 <= n mod 10 < 10) by (apply Z.mod_pos_bound; lia). pose proof (Z.div_mod n 10 ltac:(lia)) as DM.
    assert (Hd : forallb is_digit (digit (n mod 10) :: acc) = true) by (cbn [forallb]; rewrite digit_is by exact Hm; exact Ha).
    cbv zeta. destruct (Z.eqb_spec (n / 10) 0) as [E|E].
    + split; [exact Hd|]. rewrite value_cons by exact Hm. split; [|congruence]. f_equal. f_equal. lia.
    + rewrite Nat2Z.inj_succ, Z.pow_succ_r in Hn by lia.
      destruct (IH (n / 10) (digit (n mod 10) :: acc)) as (A & B & C); [|exact Hd|].
      { split; [apply Z.div_pos; lia|]. apply Z.div_lt_upper_bound; lia. }
      split; [exact A|]. split.
      * rewrite B, value_cons by exact Hm. cbn [length]. rewrite Nat2Z.inj_succ, Z.pow_succ_r by lia.
        rewrite DM at 3. ring.
      * intros _. destruct fuel; [|apply C; congruence]. cbn [digits_from]. congruence.
Qed.
Lemma decimal_spec n : 0 <= n -> forallb is_digit (decimal n) = true /\ value_of (decimal n) = n /\ decimal n <> [].
Proof.
  intros H. unfold decimal. destruct (digits_from_spec (S (Z.to_nat (Z.log2 n))) n []) as (A & B & C); [|reflexivity|].
  - split; [exact H|]. rewrite Nat2Z.inj_succ, Z2Nat.id by apply Z.log2_nonneg.
    destruct (Z.eq_dec n 0) as [->|N]; [reflexivity|]. apply Z.log2_spec. lia.
  - split; [exact A|]. split; [rewrite B; cbn; lia|apply C; congruence].
Qed.
Lemma last_digits_spec k : forall n acc, 0 <= n -> forallb is_digit acc = true ->
  let l := last_digits k n acc in forallb is_digit l = true /\ length l = (k + length acc)%nat /\
    value_of l = (n mod 10 ^ Z.of_nat k) * 10 ^ Z.of_nat (length acc) + value_of acc.
Proof.
  induction k as [|k IH]; intros n acc Hn Ha; cbn [last_digits].
  - split; [exact Ha|]. split; [reflexivity|]. cbn [Z.of_nat Z.pow]. rewrite Z.mod_1_r. lia.
  - assert (Hm : 0 <= n mod 10 < 10) by (apply Z.mod_pos_bound; lia).
    assert (Hd : forallb is_digit (digit (n mod 10) :: acc) = true) by (cbn [forallb]; rewrite digit_is by exact Hm; exact Ha).
    destruct (IH (n / 10) (digit (n mod 10) :: acc)) as (A & B & C); [apply Z.div_pos; lia|exact Hd|].
    split; [exact A|]. split; [rewrite B; cbn [length]; lia|].
    rewrite C, value_cons by exact Hm. cbn [length]. rewrite !Nat2Z.inj_succ, !Z.pow_succ_r by lia.
    assert (K : 0 < 10 ^ Z.of_nat k) by (apply Z.pow_pos_nonneg; lia).
    rewrite Z.rem_mul_r by lia. ring.
Qed.

(** *** splitting *)
Lemma split_app sep w : forall acc rest c, forallb (fun c => negb (sep c)) w = true -> sep c = true ->
  split sep (w ++ c :: rest) acc = (rev acc ++ w) :: split sep rest [].
Proof.
  induction w as [|d w IH]; intros acc rest c Hw Hc; cbn [app split].
  - rewrite Hc, app_nil_r. reflexivity.
  - cbn [forallb] in Hw. apply andb_true_iff in Hw as [Hd Hw]. apply negb_true_iff in Hd. rewrite Hd, IH by assumption.
    cbn [rev]. rewrite <- app_assoc. reflexivity.
Qed.
Lemma split_end sep w : forall acc, forallb (fun c => negb (sep c)) w = true -> split sep w acc = [rev acc ++ w].
Proof.
  induction w as [|d w IH]; intros acc Hw; cbn [split].
  - rewrite app_nil_r. reflexivity.
  - cbn [forallb] in Hw. apply andb_true_iff in Hw as [Hd Hw]. apply negb_true_iff in Hd. rewrite Hd, IH by assumption.
    cbn [rev]. rewrite <- app_assoc. reflexivity.
Qed.
Lemma forallb_imp {A} (f g : A -> bool) l : (forall a, f a = true -> g a = true) -> forallb f l = true -> forallb g l = true.
Proof. intros H. rewrite !forallb_forall. auto. Qed.
Lemma digit_not c d : is_digit c = true -> (Nat.ltb (nat_of_ascii d) 48 = true) -> Ascii.eqb d c = false.
Proof.
  intros H1 H2. destruct (Ascii.eqb_spec d c) as [->|]; [|reflexivity]. unfold is_digit in H1. apply andb_true_iff in H1 as [H1 _].
  apply Nat.leb_le in H1. apply Nat.ltb_lt in H2. lia.
Qed.

(** *** one number *)
Lemma read_int_of l : forallb is_digit l = true -> l <> [] -> read_int l = Some (value_of l).
Proof. intros H N. unfold read_int. destruct l; [congruence|]. rewrite H. reflexivity. Qed.
Lemma read_fixed a b : forallb is_digit a = true -> a <> [] -> forallb is_digit b = true -> b <> [] ->
  read_unsigned (a ++ [dot] ++ b) = Some (IZR (value_of a) + IZR (value_of b) / 10 ^ length b)%R.
Proof.
  intros A NA B NB. unfold read_unsigned. cbn [app].
  assert (K : forall l, forallb is_digit l = true -> forallb (fun c => negb (Ascii.eqb dot c)) l = true).
  { intros l. apply forallb_imp. intros c Hc. rewrite (digit_not c dot Hc); reflexivity. }
  rewrite split_app by (auto; reflexivity). rewrite split_end by auto. cbn [rev app]. rewrite !read_int_of by assumption. reflexivity.
Qed.
Lemma round_even_near x : (Rabs (IZR (round_even x) - x) <= 1 / 2)%R.
Proof.
  unfold round_even. cbv zeta. pose proof (Rfloor_spec x) as [L U]. set (f := Rfloor x) in *. clearbody f.
  destruct (Rltb_spec (x - IZR f) (1 / 2)) as [A|A].
  - apply Rabs_le. lra.
  - destruct (Rltb_spec (1 / 2) (x - IZR f)) as [B|B].
    + rewrite plus_IZR. apply Rabs_le. lra.
    + destruct (Z.even f); [|rewrite plus_IZR]; apply Rabs_le; lra.
Qed.
Lemma round_even_nonneg x : (0 <= x)%R -> 0 <= round_even x.
Proof.
  intros H. assert (K : (0 <= Rfloor x)%Z) by (pose proof (Rfloor_spec x) as [L U]; apply Z.lt_succ_r, lt_IZR; unfold Z.succ; rewrite plus_IZR; lra).
  unfold round_even. cbv zeta. destruct (Rltb _ _); [exact K|]. destruct (Rltb _ _); [lia|]. destruct (Z.even _); lia.
Qed.
Lemma fixed10_read x : exists n, 0 <= n /\ (Rabs (IZR n - Rabs x * IZR ten10) <= 1 / 2)%R /\
  read_number (fixed10 x) = Some (if Rltb x 0 then - (IZR n / IZR ten10) else IZR n / IZR ten10)%R.
Proof.
  exists (round_even (Rabs x * IZR ten10)). set (n := round_even _).
  assert (Hn : 0 <= n) by (apply round_even_nonneg, Rmult_le_pos; [apply Rabs_pos|apply IZR_le; discriminate]).
  split; [exact Hn|]. split; [apply round_even_near|].
  unfold fixed10. fold n. cbv zeta.
  assert (T10 : 0 < ten10) by reflexivity.
  destruct (decimal_spec (n / ten10)) as (A1 & A2 & A3); [apply Z.div_pos; lia|].
  destruct (last_digits_spec 10 (n mod ten10) []) as (B1 & B2 & B3); [apply Z.mod_pos_bound; lia|reflexivity|].
  set (a := decimal (n / ten10)) in *. set (b := last_digits 10 (n mod ten10) []) in *.
  assert (Nb : b <> []) by (destruct b; cbn in B2; [lia|congruence]).
  assert (V : (IZR (value_of a) + IZR (value_of b) / 10 ^ length b = IZR n / IZR ten10)%R).
  { rewrite A2, B3, B2. cbn [length]. change (10 ^ Z.of_nat 10) with ten10. change (10 ^ Z.of_nat 0) with 1. change (value_of []) with 0.
    rewrite Z.mod_mod, Z.mul_1_r, Z.add_0_r by lia. replace (10 ^ (10 + 0))%R with (IZR ten10) by (unfold ten10; cbn; lra).
    rewrite (Z.div_mod n ten10) at 3 by lia. rewrite plus_IZR, mult_IZR. field. unfold ten10. lra. }
  destruct (Rltb_spec x 0) as [L|L].
  - cbn [app read_number]. change (Ascii.eqb minus minus) with true. cbv iota. pose proof (read_fixed a b A1 A3 B1 Nb) as Rd. cbn [app] in Rd. rewrite Rd, V. reflexivity.
  - cbn [app]. unfold read_number. pose proof (read_fixed a b A1 A3 B1 Nb) as Rd. cbn [app] in Rd.
    destruct a as [|c a']; [congruence|]. cbn [app] in Rd |- *.
    replace (Ascii.eqb c minus) with false; [rewrite Rd, V; reflexivity|].
    cbn [forallb] in A1. apply andb_true_iff in A1 as [Hc _]. rewrite Ascii.eqb_sym. symmetry. apply digit_not; [exact Hc|reflexivity].
Qed.
Lemma fixed10_near x : exists v, read_number (fixed10 x) = Some v /\ near v x.
Proof.
  destruct (fixed10_read x) as (n & Hn & E & Rd). rewrite Rd. eexists. split; [reflexivity|]. unfold near.
  replace (/ 2 * / 10 ^ 10)%R with (1 / 2 / IZR ten10)%R by (unfold ten10; cbn; lra).
  assert (T : (0 < IZR ten10)%R) by (unfold ten10; lra).
  assert (K : (Rabs (IZR n / IZR ten10 - Rabs x) <= 1 / 2 / IZR ten10)%R).
  { replace (IZR n / IZR ten10 - Rabs x)%R with ((IZR n - Rabs x * IZR ten10) * / IZR ten10)%R by (field; lra).
    rewrite Rabs_mult, (Rabs_right (/ _)) by (left; apply Rinv_0_lt_compat; exact T).
    apply Rmult_le_compat_r; [left; apply Rinv_0_lt_compat; exact T|exact E]. }
  destruct (Rltb_spec x 0) as [L|L].
  - rewrite (Rabs_left x L) in K. replace (- (IZR n / IZR ten10) - x)%R with (- (IZR n / IZR ten10 - - x))%R by ring. rewrite Rabs_Ropp. exact K.
  - rewrite (Rabs_right x) in K by lra. exact K.
Qed.
Lemma fixed10_shape x : ten_decimals (fixed10 x).
Proof.
  unfold fixed10. cbv zeta. set (n := round_even _).
  assert (Hn : 0 <= n) by (apply round_even_nonneg, Rmult_le_pos; [apply Rabs_pos|apply IZR_le; discriminate]).
  assert (T10 : 0 < ten10) by reflexivity.
  destruct (decimal_spec (n / ten10)) as (A1 & A2 & A3); [apply Z.div_pos; lia|].
  destruct (last_digits_spec 10 (n mod ten10) []) as (B1 & B2 & B3); [apply Z.mod_pos_bound; lia|reflexivity|].
  exists (if Rltb x 0 then [minus] else []), (decimal (n / ten10)), (last_digits 10 (n mod ten10) []).
  split; [reflexivity|]. split; [destruct (Rltb x 0); auto|]. split; [exact A3|]. split; [exact B2|]. rewrite forallb_app, A1, B1. reflexivity.
Qed.
Definition sepb (c : ascii) : bool := (Ascii.eqb comma c || Ascii.eqb nl c)%bool.
Lemma digits_nosep l : forallb is_digit l = true -> forallb (fun c => negb (sepb c)) l = true.
Proof. apply forallb_imp. intros c Hc. unfold sepb. rewrite !(digit_not c) by (exact Hc || reflexivity). reflexivity. Qed.
Lemma shape_nosep w : ten_decimals w -> w <> [] /\ forallb (fun c => negb (sepb c)) w = true.
Proof.
  intros (sg & a & b & -> & Hs & Na & Lb & H). split; [destruct Hs as [->| ->]; destruct a; cbn; congruence|].
  rewrite forallb_app in H. apply andb_true_iff in H as [Ha Hb].
  rewrite (forallb_app _ sg), (forallb_app _ a). cbn [forallb]. rewrite (digits_nosep a Ha), (digits_nosep b Hb).
  destruct Hs as [->| ->]; reflexivity.
Qed.

(** *** rows and blocks *)
Lemma words_skip c t : sepb c = true -> words_of (c :: t) = words_of t.
Proof. intros H. unfold words_of. cbn [split]. fold sepb. unfold sepb in H. rewrite H. reflexivity. Qed.
Lemma words_step w c t : w <> [] -> forallb (fun c => negb (sepb c)) w = true -> sepb c = true -> words_of (w ++ c :: t) = w :: words_of t.
Proof.
  intros N Hw Hc. unfold words_of. change (fun c0 => (Ascii.eqb comma c0 || Ascii.eqb nl c0)%bool) with sepb. rewrite split_app by assumption. cbn [rev app filter].
  destruct w; [congruence|]. reflexivity.
Qed.
Definition good (w : text) : Prop := w <> [] /\ forallb (fun c => negb (sepb c)) w = true.
Lemma words_row r t : r <> [] -> Forall good r -> words_of (join comma r ++ nl :: t) = r ++ words_of t.
Proof.
  induction r as [|w r IH]; intros N H; [congruence|]. inversion H as [|? ? [W1 W2] H']; subst. cbn [join].
  destruct r as [|w' r].
  - cbn [app]. apply words_step; auto.
  - rewrite <- app_assoc. cbn [app]. rewrite words_step by auto. f_equal. apply IH; [congruence|exact H'].
Qed.
Lemma words_block b t : Forall (fun r => r <> [] /\ Forall good r) b -> words_of (block_text b ++ t) = concat b ++ words_of t.
Proof.
  unfold block_text. induction b as [|r b IH]; intros H; cbn [flat_map concat app].
  - apply words_skip. reflexivity.
  - inversion H as [|? ? [N G] H']; subst. rewrite <- !app_assoc. cbn [app]. rewrite words_row by assumption. f_equal.
    rewrite <- IH by exact H'. rewrite <- app_assoc. reflexivity.
Qed.
Lemma words_blocks bs : Forall (Forall (fun r => r <> [] /\ Forall good r)) bs -> words_of (flat_map block_text bs) = concat (map (@concat text) bs).
Proof.
  induction bs as [|b bs IH]; intros H; cbn [flat_map map concat].
  - reflexivity.
  - inversion H; subst. rewrite words_block by assumption. rewrite IH by assumption. reflexivity.
Qed.

Section Rows.
Context {T : Type} (fmt : T -> text).
Lemma forM_build {A S} (body : S -> A -> outcome S) (g : S -> A -> S) l : (forall a, In a l -> forall s, body s a = Ok (g s a)) -> forall s, forM l body s = Ok (fold_left g l s).
Proof. induction l as [|a l IH]; intros H s; cbn [forM fold_left]; [reflexivity|]. rewrite H by (left; reflexivity). cbn [bind]. apply IH. intros; apply H. right; assumption. Qed.
Lemma range_cons lo hi : lo < hi -> range lo hi = lo :: range (lo + 1) hi.
Proof.
  intros H. unfold range. replace (Z.to_nat (hi - lo)) with (S (Z.to_nat (hi - (lo + 1)))) by lia. cbn [seq map]. f_equal; [lia|].
  rewrite <- seq_shift, map_map. apply map_ext. intros; lia.
Qed.
Lemma join_fold (f : Z -> text) l : forall a, fold_left (fun acc j => acc ++ [comma] ++ f j) l a = a ++ flat_map (fun j => comma :: f j) l.
Proof.
  induction l as [|j l IH]; intros a; cbn [fold_left flat_map]; [rewrite app_nil_r; reflexivity|]. rewrite IH, <- !app_assoc. reflexivity.
Qed.
Lemma join_cons w (f : Z -> text) l : join comma (w :: map f l) = w ++ flat_map (fun j => comma :: f j) l.
Proof.
  revert w. induction l as [|j l IH]; intros w; cbn [map flat_map]; [rewrite app_nil_r; reflexivity|].
  change (join comma (w :: f j :: map f l)) with (w ++ comma :: join comma (f j :: map f l)). rewrite IH. reflexivity.
Qed.
Lemma print_row_ok get v nx : 1 <= nx -> (forall j, 0 <= j < nx -> get j = Ok (v j)) ->
  print_row fmt get nx = Ok (join comma (map (fun j => fmt (v j)) (range 0 nx))).
Proof.
  intros Hn H. unfold print_row. rewrite H by lia. cbn [bind].
  rewrite (forM_build _ (fun acc j => acc ++ [comma] ++ fmt (v j))).
  - rewrite join_fold, (range_cons 0 nx) by lia. cbn [map]. rewrite join_cons. reflexivity.
  - intros j Hj s. apply in_range in Hj. rewrite H by lia. reflexivity.
Qed.
Lemma print_block_ok get v nx ny : 1 <= nx -> (forall i j, 0 <= i < ny -> 0 <= j < nx -> get i j = Ok (v i j)) ->
  print_block fmt get nx ny = Ok (block_text (map (fun i => map (fun j => fmt (v i j)) (range 0 nx)) (range 0 ny))).
Proof.
  intros Hn H. unfold print_block.
  rewrite (forM_build _ (fun acc i => acc ++ join comma (map (fun j => fmt (v i j)) (range 0 nx)) ++ [nl])).
  - cbn [bind]. unfold block_text. f_equal. f_equal. 
    assert (K : forall l a, fold_left (fun acc i => acc ++ join comma (map (fun j => fmt (v i j)) (range 0 nx)) ++ [nl]) l a =
      a ++ flat_map (fun r => join comma r ++ [nl]) (map (fun i => map (fun j => fmt (v i j)) (range 0 nx)) l)).
    { induction l as [|i l IH]; intros a; cbn [fold_left map flat_map]; [rewrite app_nil_r; reflexivity|]. rewrite IH, <- app_assoc. reflexivity. }
    rewrite K. reflexivity.
  - intros i Hi s. apply in_range in Hi. rewrite (print_row_ok _ (v i)) by (auto; lia). reflexivity.
Qed.
End Rows.

Lemma file_eqb_eq f g : file_eqb f g = true <-> f = g.
Proof. destruct f, g; cbn; split; congruence. Qed.
Lemma fileprint_ok {T} {NT : Num T} (fmt : T -> text) (F : flow T) nx ny Tp time m (v : file -> Z -> Z -> T) fs : 1 <= nx ->
  (forall f i j, 0 <= i < ny -> 0 <= j < nx -> printed_value F Tp time m f i j = Ok (v f i j)) ->
  exists fs', fileprint fmt F nx ny Tp time m fs = Ok fs' /\
    forall f, fs' f = fs f ++ block_text (map (fun i => map (fun j => fmt (v f i j)) (range 0 nx)) (range 0 ny)).
Proof.
  intros Hn H. unfold fileprint. cbn [forM]. 
  rewrite !(print_block_ok fmt _ (v FPhi)), !(print_block_ok fmt _ (v FPsix)), !(print_block_ok fmt _ (v FPsiy)), !(print_block_ok fmt _ (v FPsixy)),
    !(print_block_ok fmt _ (v FVelx)), !(print_block_ok fmt _ (v FVely)) by auto. cbn [bind].
  eexists. split; [reflexivity|]. intros []; reflexivity.
Qed.

(** *** Readfiles.m *)
Lemma rf_row_ok r : forall vs rest, Forall2 (fun w v => read_number w = Some v) r vs -> rf_row (length r) (r ++ rest) = Some (vs, rest).
Proof.
  induction r as [|w r IH]; intros vs rest H; inversion H; subst; [reflexivity|]. cbn [length app rf_row]. rewrite H2. erewrite IH by eassumption. reflexivity.
Qed.
Lemma rf_times_ok {A B} (f : list text -> option (A * list text)) (enc : B -> list text) bs : forall vs rest,
  Forall2 (fun b v => forall rest, f (enc b ++ rest) = Some (v, rest)) bs vs ->
  rf_times (length bs) f (concat (map enc bs) ++ rest) = Some (vs, rest).
Proof.
  induction bs as [|b bs IH]; intros vs rest H; inversion H; subst; [reflexivity|]. cbn [length map concat rf_times]. rewrite <- app_assoc, H2. erewrite IH by eassumption. reflexivity.
Qed.
Lemma rf_times_more {A B} (f : list text -> option (A * list text)) (enc : B -> list text) bs : forall vs, f [] = None ->
  Forall2 (fun b v => forall rest, f (enc b ++ rest) = Some (v, rest)) bs vs ->
  rf_times (S (length bs)) f (concat (map enc bs)) = None.
Proof.
  intros vs Hf. revert vs. induction bs as [|b bs IH]; intros vs H; inversion H; subst.
  - cbn [length map concat rf_times]. rewrite Hf. reflexivity.
  - cbn [length map concat]. change (rf_times (S (S (length bs))) f (enc b ++ concat (map enc bs))) with
      (match f (enc b ++ concat (map enc bs)) with Some (a, l') => match rf_times (S (length bs)) f l' with Some (r, l'') => Some (a :: r, l'') | None => None end | None => None end).
    rewrite H2, (IH l') by assumption. reflexivity.
Qed.
Lemma rf_count_ok n p : 0 <= n < 2147483647 -> 0 < p -> rf_count n p = 1 + n / p + (if 2 * (n mod p) <? p then 0 else 1).
Proof.
  intros Hn Hp. unfold rf_count. rewrite (proj2 (Z.eqb_neq p 0)) by lia.
  pose proof (Z.div_mod n p ltac:(lia)) as DM. pose proof (Z.mod_pos_bound n p Hp) as MB. set (r := n mod p) in *. set (q := n / p) in *. clearbody q r.
  assert (Q0 : 0 <= q) by (destruct (Z.lt_ge_cases q 0); [|assumption]; assert (p * q <= - p) by nia; lia).
  assert (E : (2 * n + p) / (2 * p) = q + (if 2 * r <? p then 0 else 1)).
  { destruct (Z.ltb_spec (2 * r) p).
    - symmetry. apply (Z.div_unique_pos _ _ _ (2 * r + p)); lia.
    - symmetry. apply (Z.div_unique_pos _ _ _ (2 * r - p)); lia. }
  rewrite E. unfold int32.
  assert (p * q <= n) by lia. assert (q + (if 2 * r <? p then 0 else 1) <= n).
  { destruct (Z.ltb_spec (2 * r) p) as [L|L]; [nia|]. assert (1 <= r) by lia. nia. }
  assert (0 <= (if 2 * r <? p then 0 else 1)) by (destruct (2 * r <? p); lia).
  set (e := if 2 * r <? p then 0 else 1) in *. clearbody e. clear DM H. rewrite Z.min_r, Z.max_r by lia. lia.
Qed.

Lemma split_comma w rest : forallb (fun c => negb (sepb c)) w = true -> split (Ascii.eqb comma) (w ++ [comma] ++ rest) [] = w :: split (Ascii.eqb comma) rest [].
Proof.
  intros H. cbn [app]. rewrite split_app; [reflexivity| |reflexivity]. revert H. apply forallb_imp. intros c Hc. unfold sepb in Hc.
  apply negb_true_iff, orb_false_iff in Hc as [-> _]. reflexivity.
Qed.
Lemma details_read (s : settings R) n : 0 <= s_nx s < 2147483648 -> 0 <= s_ny s < 2147483648 -> 0 <= n < 2147483648 -> 0 <= print_every s n < 2147483648 ->
  rf_details (details fixed10 s n) = Some (s_nx s, s_ny s, n, print_every s n).
Proof.
  intros H1 H2 H3 H4. unfold rf_details, details.
  assert (Dc : forall z, 0 <= z -> forallb (fun c => negb (sepb c)) (decimal z) = true) by (intros; apply digits_nosep, decimal_spec; assumption).
  assert (Fx : forall x, forallb (fun c => negb (sepb c)) (fixed10 x) = true) by (intros; apply shape_nosep, fixed10_shape).
  rewrite !split_comma by (apply Fx || (apply Dc; lia)).
  rewrite split_end.
  2:{ generalize (Dc (print_every s n) ltac:(lia)). apply forallb_imp. intros c Hc. unfold sepb in Hc. apply negb_true_iff, orb_false_iff in Hc as [-> _]. reflexivity. }
  cbn [rev app].
  assert (Ri : forall z, 0 <= z -> read_int (decimal z) = Some z).
  { intros z Hz. destruct (decimal_spec z Hz) as (A & B & C). rewrite read_int_of, B by assumption. reflexivity. }
  rewrite !Ri by lia. unfold int32. repeat f_equal; lia.
Qed.

(** *** whole runs *)
Definition shows whole F (s : settings R) (q : nat) (b : R * mem R) : Prop :=
  fst b = time_at (Z.of_nat q) (s_dt s) /\ nodes_at (s_nx s) (s_ny s) (node_x s) (node_y s) (snd b) /\
  contains (s_nx s) (s_ny s) (after whole F s (node_x s) (node_y s) q (initial (node_x s) (node_y s))) (snd b).
Lemma loop_shows whole F (s : settings R) every : proper s -> 0 < every -> forall left k m out,
  Z.of_nat k + Z.of_nat left < 4294967296 ->
  nodes_at (s_nx s) (s_ny s) (node_x s) (node_y s) m -> contains (s_nx s) (s_ny s) (after whole F s (node_x s) (node_y s) k (initial (node_x s) (node_y s))) m ->
  blocks every (shows whole F s) k out ->
  exists m' out', time_steps whole F s every (Z.of_nat k) left m out = Ok (m', out') /\ blocks every (shows whole F s) (k + left) out'.
Proof.
  intros P He. destruct P as (N1 & N2 & L1 & L2). induction left as [|left IH]; intros k m out B Hn Hf Ho.
  - exists m, out. rewrite Nat.add_0_r. cbn [time_steps]. auto.
  - cbn [time_steps]. destruct (after_step whole F s (initial (node_x s) (node_y s)) N1 N2 L1 L2 k m Hn Hf) as (m1 & R1 & Hn1 & Hf1). rewrite R1. cbn [bind].
    replace (every =? 0) with false by lia. rewrite u32_small by lia.
    replace (Z.of_nat k + 1) with (Z.of_nat (S k)) by lia. replace (k + S left)%nat with (S k + left)%nat by lia.
    apply IH; [lia|exact Hn1|exact Hf1|].
    destruct (Z.eqb_spec (Z.of_nat (S k) mod every) 0) as [E|E].
    + apply blocks_push; auto. split; [reflexivity|]. split; assumption.
    + apply blocks_skip; auto.
Qed.
Lemma main_shows whole F (s : settings R) n : proper s -> 0 <= n < 4294967296 -> (IZR n <= s_Tfinal s / s_dt s < IZR n + 1)%R -> 0 < print_every s n \/ n = 0 ->
  exists m out, main_ whole F s = Ok (m, out) /\ Z.of_nat (length out) = 1 + n / print_every s n /\
    forall b o, nth_error out b = Some o -> shows whole F s (Z.to_nat (Z.of_nat b * print_every s n)) o.
Proof.
  intros P Hn Hq He. unfold main_. rewrite (step_count_R s n Hn Hq). cbn [bind].
  destruct (setup_ok s) as (m0 & R0 & A0 & B0 & _). rewrite R0. cbn [bind]. set (every := print_every s n) in *. clearbody every.
  change (xs_of s) with (node_x s) in A0, B0. change (ys_of s) with (node_y s) in A0, B0.
  assert (S0 : shows whole F s 0 (0%R, m0)).
  { split; [|split; [exact A0|exact B0]]. cbn [fst]. rewrite time_at_num by lia. cbn. lra. }
  change 0 with (Z.of_nat 0) at 1. destruct (Z.eq_dec n 0) as [->|N0].
  - cbn [Z.to_nat time_steps]. eexists _, _. split; [reflexivity|]. split; [rewrite Zdiv_0_l; reflexivity|].
    intros [|b] o; cbn [nth_error]; [|destruct b; discriminate]. intros E. injection E as <-. exact S0.
  - assert (He' : 0 < every) by lia.
    destruct (loop_shows whole F s every P He' (Z.to_nat n) 0%nat m0 [(0%R, m0)]) as (m1 & out & R1 & Len & Blk).
    + lia.
    + exact A0.
    + exact B0.
    + split; [cbn [length]; rewrite Zdiv_0_l; reflexivity|]. intros [|b] o; cbn [nth_error]; [|destruct b; discriminate]. intros E. injection E as <-.
      exists 0%nat. split; [lia|exact S0].
    + exists m1, out. split; [exact R1|]. rewrite Nat.add_0_l, Z2Nat.id in Len by lia. split; [exact Len|].
      intros b o Hb. destruct (Blk b o Hb) as (q' & Q1 & Q2). rewrite <- Q1, Nat2Z.id. exact Q2.
Qed.

Definition block_words whole F (s : settings R) f q : list (list text) :=
  map (fun i => map (fun j => fixed10 (file_value whole F s f q i j)) (range 0 (s_nx s))) (range 0 (s_ny s)).
Lemma one_print whole F (s : settings R) q b fs : proper s -> Z.of_nat q < 4294967296 -> shows whole F s q b ->
  exists fs', fileprint fixed10 F (s_nx s) (s_ny s) (s_Tp s) (fst b) (snd b) fs = Ok fs' /\ forall f, fs' f = fs f ++ block_text (block_words whole F s f q).
Proof.
  intros (N1 & N2 & _) Q (Ht & [Hx Hy] & Hc). apply fileprint_ok; [lia|]. intros f i j Hi Hj. unfold printed_value, rd_out, file_value.
  destruct Hc as (_ & _ & _ & _ & C1 & C2 & C3 & C4).
  rewrite Ht, time_at_num by lia. rewrite <- INR_IZR_INZ.
  destruct f; rewrite ?C1, ?C2, ?C3, ?C4, ?Hx, ?Hy by assumption; reflexivity.
Qed.
Lemma all_prints whole F (s : settings R) qs : proper s -> (forall q, In q qs -> Z.of_nat q < 4294967296) -> forall out fs,
  Forall2 (shows whole F s) qs out ->
  exists fs', forM out (fun fs b => fileprint fixed10 F (s_nx s) (s_ny s) (s_Tp s) (fst b) (snd b) fs) fs = Ok fs' /\
    forall f, fs' f = fs f ++ flat_map block_text (map (block_words whole F s f) qs).
Proof.
  intros P. induction qs as [|q qs IH]; intros Hq out fs H; inversion H; subst; cbn [forM map flat_map].
  - exists fs. split; [reflexivity|]. intros; rewrite app_nil_r; reflexivity.
  - destruct (one_print whole F s q y fs P) as (fs1 & R1 & E1); [apply Hq; left; reflexivity|assumption|]. rewrite R1. cbn [bind].
    destruct (IH (fun q' I => Hq q' (or_intror I)) l' fs1) as (fs2 & R2 & E2); [assumption|]. exists fs2. split; [exact R2|].
    intros f. rewrite E2, E1, app_assoc. reflexivity.
Qed.
Definition printed_at (s : settings R) n : list nat := map (fun b => Z.to_nat (Z.of_nat b * print_every s n)) (seq 0 (Z.to_nat (1 + n / print_every s n))).
Lemma Forall2_nth {A B} (P : A -> B -> Prop) l : forall l', length l = length l' -> (forall k a b, nth_error l k = Some a -> nth_error l' k = Some b -> P a b) -> Forall2 P l l'.
Proof.
  induction l as [|a l IH]; intros [|b l'] L H; try discriminate; constructor.
  - apply (H 0%nat); reflexivity.
  - apply IH; [cbn in L; lia|]. intros k. apply (H (S k)).
Qed.
Lemma nth_error_seq' a n k v : nth_error (seq a n) k = Some v -> v = (a + k)%nat /\ (k < n)%nat.
Proof.
  intros H. assert (L : (k < n)%nat) by (rewrite <- (seq_length n a); apply nth_error_Some; congruence). split; [|exact L].
  rewrite (nth_error_nth' _ 0%nat) in H by (rewrite seq_length; exact L). rewrite seq_nth in H by exact L. congruence.
Qed.
Lemma run_files_ok whole F (s : settings R) n : proper s -> 0 <= n < 4294967296 -> (IZR n <= s_Tfinal s / s_dt s < IZR n + 1)%R -> 0 < print_every s n \/ n = 0 ->
  exists fs, run_files fixed10 whole F s = Ok (details fixed10 s n, fs) /\
    forall f, fs f = flat_map block_text (map (block_words whole F s f) (printed_at s n)).
Proof.
  intros P Hn Hq He. destruct (main_shows whole F s n P Hn Hq He) as (m & out & R1 & L & Sh).
  assert (Q : 0 <= n / print_every s n).
  { destruct He as [He| ->]; [apply Z.div_pos; lia|rewrite Zdiv_0_l; lia]. }
  destruct (all_prints whole F s (printed_at s n) P) with (out := out) (fs := no_files) as (fs & R2 & E).
  - intros q Hin. unfold printed_at in Hin. apply in_map_iff in Hin as (b & <- & Hb). apply in_seq in Hb.
    destruct He as [He| ->].
    + assert (Z.of_nat b <= n / print_every s n) by lia. pose proof (Z.mul_div_le n (print_every s n) He).
      rewrite Z2Nat.id by nia. nia.
    + rewrite Zdiv_0_l in Hb. replace b with 0%nat by lia. cbn. lia.
  - apply Forall2_nth.
    + unfold printed_at. rewrite map_length, seq_length. lia.
    + intros k q o Hk Ho. unfold printed_at in Hk. rewrite nth_error_map in Hk. destruct (nth_error (seq _ _) k) as [v|] eqn:Ev; [|discriminate].
      apply nth_error_seq' in Ev as [-> _]. cbn in Hk. injection Hk as <-. apply Sh. exact Ho.
  - exists fs. split; [|exact E]. unfold run_files. rewrite (step_count_R s n Hn Hq). cbn [bind]. rewrite R1. cbn [bind snd]. rewrite R2. reflexivity.
Qed.

(** *** what can be read back *)
Lemma range_len lo hi : lo <= hi -> Z.of_nat (length (range lo hi)) = hi - lo.
Proof. intros. unfold range. rewrite map_length, seq_length. lia. Qed.
Lemma nth_range n k v : nth_error (range 0 n) k = Some v -> v = Z.of_nat k /\ 0 <= v < n.
Proof.
  unfold range. rewrite nth_error_map. destruct (nth_error (seq _ _) k) as [u|] eqn:E; [|discriminate]. apply nth_error_seq' in E as [-> L].
  cbn. intros H. injection H as <-. lia.
Qed.
Lemma words_good whole F (s : settings R) f q : proper s -> Forall (fun r => r <> [] /\ Forall good r) (block_words whole F s f q).
Proof.
  intros (N1 & N2 & _). unfold block_words. apply Forall_forall. intros r Hr. apply in_map_iff in Hr as (i & <- & _). split.
  - rewrite range_cons by lia. cbn. congruence.
  - apply Forall_forall. intros w Hw. apply in_map_iff in Hw as (j & <- & _). apply shape_nosep, fixed10_shape.
Qed.
(** the number read from a word *)
Definition back (x : R) : R := match read_number (fixed10 x) with Some v => v | None => 0%R end.
Lemma back_read x : read_number (fixed10 x) = Some (back x).
Proof. unfold back. destruct (fixed10_near x) as (v & -> & _). reflexivity. Qed.
Lemma back_near x : near (back x) x.
Proof. unfold back. destruct (fixed10_near x) as (v & -> & H). exact H. Qed.
Definition block_back whole F (s : settings R) f q : list (list R) :=
  map (fun i => map (fun j => back (file_value whole F s f q i j)) (range 0 (s_nx s))) (range 0 (s_ny s)).
Lemma block_read whole F (s : settings R) f q rest : proper s ->
  rf_times (Z.to_nat (s_ny s)) (rf_row (Z.to_nat (s_nx s))) (concat (block_words whole F s f q) ++ rest) = Some (block_back whole F s f q, rest).
Proof.
  intros (N1 & N2 & _).
  assert (Ln : forall n, 0 <= n -> length (range 0 n) = Z.to_nat n) by (intros; unfold range; rewrite map_length, seq_length; lia).
  pose proof (rf_times_ok (rf_row (Z.to_nat (s_nx s))) (fun r : list text => r) (block_words whole F s f q) (block_back whole F s f q) rest) as K.
  rewrite map_id in K. unfold block_words in K at 2. rewrite map_length, Ln in K by lia. apply K. clear K.
  unfold block_words, block_back. induction (range 0 (s_ny s)) as [|i l IH]; cbn [map]; constructor; [|exact IH].
  intros rest'. pose proof (rf_row_ok (map (fun j => fixed10 (file_value whole F s f q i j)) (range 0 (s_nx s)))) as K.
  rewrite map_length, Ln in K by lia. apply K. clear K IH Ln. induction (range 0 (s_nx s)); cbn [map]; constructor; [apply back_read|assumption].
Qed.
Lemma block_table whole F (s : settings R) f q : proper s -> table (s_nx s) (s_ny s) (fun i j v => near v (file_value whole F s f q i j)) (block_back whole F s f q).
Proof.
  intros (N1 & N2 & _). unfold block_back. split; [rewrite map_length, range_len by lia; lia|]. intros i r Hr. rewrite nth_error_map in Hr.
  destruct (nth_error _ i) as [i'|] eqn:E; [|discriminate]. apply nth_range in E as [-> _]. cbn in Hr. injection Hr as <-.
  split; [rewrite map_length, range_len by lia; lia|]. intros j w Hw. rewrite nth_error_map in Hw.
  destruct (nth_error _ j) as [j'|] eqn:E; [|discriminate]. apply nth_range in E as [-> _]. cbn in Hw. injection Hw as <-. apply back_near.
Qed.
Lemma word_table whole F (s : settings R) f q : proper s ->
  table (s_nx s) (s_ny s) (fun i j w => ten_decimals w /\ exists v, read_number w = Some v /\ near v (file_value whole F s f q i j)) (block_words whole F s f q).
Proof.
  intros (N1 & N2 & _). unfold block_words. split; [rewrite map_length, range_len by lia; lia|]. intros i r Hr. rewrite nth_error_map in Hr.
  destruct (nth_error _ i) as [i'|] eqn:E; [|discriminate]. apply nth_range in E as [-> _]. cbn in Hr. injection Hr as <-.
  split; [rewrite map_length, range_len by lia; lia|]. intros j w Hw. rewrite nth_error_map in Hw.
  destruct (nth_error _ j) as [j'|] eqn:E; [|discriminate]. apply nth_range in E as [-> _]. cbn in Hw. injection Hw as <-.
  split; [apply fixed10_shape|apply fixed10_near].
Qed.

(** the statements *)
Lemma files_layout whole F (s : settings R) n : proper s -> 0 <= n < 4294967296 -> (IZR n <= s_Tfinal s / s_dt s < IZR n + 1)%R -> 0 < print_every s n \/ n = 0 ->
  exists d fs, run_files fixed10 whole F s = Ok (d, fs) /\ forall f, exists bs, fs f = flat_map block_text bs /\
    Z.of_nat (length bs) = 1 + n / print_every s n /\
    forall b blk, nth_error bs b = Some blk ->
      table (s_nx s) (s_ny s) (fun i j w => ten_decimals w /\ exists v, read_number w = Some v /\ near v (file_value whole F s f (b * Z.to_nat (print_every s n)) i j)) blk.
Proof.
  intros P Hn Hq He. destruct (run_files_ok whole F s n P Hn Hq He) as (fs & R1 & E). eexists _, fs. split; [exact R1|].
  intros f. exists (map (block_words whole F s f) (printed_at s n)). split; [apply E|].
  assert (Q : 0 <= n / print_every s n) by (destruct He as [He| ->]; [apply Z.div_pos; lia|rewrite Zdiv_0_l; lia]).
  split; [unfold printed_at; rewrite !map_length, seq_length; lia|].
  intros b blk Hb. unfold printed_at in Hb. rewrite map_map, nth_error_map in Hb. destruct (nth_error (seq _ _) b) as [v|] eqn:Ev; [|discriminate].
  apply nth_error_seq' in Ev as [-> Lb]. cbn in Hb. injection Hb as <-.
  replace (Z.to_nat (Z.of_nat b * print_every s n)) with (b * Z.to_nat (print_every s n))%nat.
  - apply word_table. exact P.
  - destruct He as [He| ->]; [rewrite Z2Nat.inj_mul by lia; rewrite Nat2Z.id; reflexivity|].
    rewrite Zdiv_0_l in Lb. replace b with 0%nat by lia. reflexivity.
Qed.
Lemma files_load whole F (s : settings R) n : proper s -> s_nx s < 2147483648 -> s_ny s < 2147483648 -> 0 <= n < 2147483647 ->
  (IZR n <= s_Tfinal s / s_dt s < IZR n + 1)%R -> 0 < print_every s n < 2147483648 ->
  exists d fs, run_files fixed10 whole F s = Ok (d, fs) /\ forall f,
    if 2 * (n mod print_every s n) <? print_every s n then
      exists bs, rf_load d (fs f) = Some bs /\ Z.of_nat (length bs) = 1 + n / print_every s n /\
        forall b blk, nth_error bs b = Some blk ->
          table (s_nx s) (s_ny s) (fun i j v => near v (file_value whole F s f (b * Z.to_nat (print_every s n)) i j)) blk
    else rf_load d (fs f) = None.
Proof.
  intros P M1 M2 Hn Hq He. destruct (run_files_ok whole F s n P) as (fs & R1 & E); [lia|exact Hq|lia|]. eexists _, fs. split; [exact R1|].
  intros f. pose proof P as (N1 & N2 & _).
  assert (Q : 0 <= n / print_every s n) by (apply Z.div_pos; lia).
  assert (W : words_of (fs f) = concat (map (fun q => concat (block_words whole F s f q)) (printed_at s n))).
  { rewrite E, words_blocks; [rewrite map_map; reflexivity|]. apply Forall_forall. intros b Hb. apply in_map_iff in Hb as (q & <- & _). apply words_good; exact P. }
  unfold rf_load. rewrite details_read by lia. rewrite W, rf_count_ok by lia.
  assert (Ln : length (printed_at s n) = Z.to_nat (1 + n / print_every s n)) by (unfold printed_at; rewrite map_length, seq_length; reflexivity).
  assert (F2 : Forall2 (fun q v => forall rest, rf_times (Z.to_nat (s_ny s)) (rf_row (Z.to_nat (s_nx s))) (concat (block_words whole F s f q) ++ rest) = Some (v, rest))
    (printed_at s n) (map (block_back whole F s f) (printed_at s n))).
  { clear E W Ln. induction (printed_at s n); cbn [map]; constructor; [|assumption]. intros; apply block_read; exact P. }
  destruct (2 * (n mod print_every s n) <? print_every s n).
  - rewrite Z.add_0_r, <- Ln. pose proof (rf_times_ok _ _ _ _ [] F2) as K. rewrite app_nil_r in K. cbn beta in K. rewrite K.
    eexists. split; [reflexivity|]. split; [rewrite map_length, Ln; lia|]. intros b blk Hb. unfold printed_at in Hb. rewrite map_map, nth_error_map in Hb.
    destruct (nth_error (seq _ _) b) as [v|] eqn:Ev; [|discriminate]. apply nth_error_seq' in Ev as [-> Lb]. cbn in Hb. injection Hb as <-.
    replace (Z.to_nat (Z.of_nat b * print_every s n)) with (b * Z.to_nat (print_every s n))%nat by (rewrite Z2Nat.inj_mul by lia; rewrite Nat2Z.id; reflexivity).
    apply block_table. exact P.
  - replace (Z.to_nat (1 + n / print_every s n + 1)) with (S (length (printed_at s n))) by lia.
    assert (Z0 : rf_times (Z.to_nat (s_ny s)) (rf_row (Z.to_nat (s_nx s))) [] = None).
    { destruct (Z.to_nat (s_ny s)) eqn:E1; [lia|]. destruct (Z.to_nat (s_nx s)) eqn:E2; [lia|]. reflexivity. }
    pose proof (rf_times_more _ _ _ _ Z0 F2) as K.
    cbn beta in K. rewrite K. reflexivity.
Qed.
Lemma decimal_number z : 0 <= z -> read_number (decimal z) = Some (IZR z).
Proof.
  intros Hz. destruct (decimal_spec z Hz) as (A & B & C).
  assert (K : read_unsigned (decimal z) = Some (IZR z)).
  { unfold read_unsigned. rewrite split_end; [|revert A; apply forallb_imp; intros c Hc; rewrite (digit_not c dot Hc); reflexivity].
    cbn [rev app]. rewrite read_int_of, B by assumption. reflexivity. }
  unfold read_number. destruct (decimal z) as [|c l]; [congruence|]. cbn [forallb] in A. apply andb_true_iff in A as [Hc _].
  rewrite Ascii.eqb_sym, (digit_not c minus Hc) by reflexivity. exact K.
Qed.
Lemma near_refl x : near x x.
Proof. unfold near. rewrite Rminus_diag_eq, Rabs_R0 by reflexivity. cbn. lra. Qed.
Lemma details_words (s : settings R) n : 0 <= s_nx s -> 0 <= s_ny s -> 0 <= n -> 0 <= print_every s n ->
  exists ws, details fixed10 s n = join comma ws /\
    Forall2 (fun w x => exists v, read_number w = Some v /\ near v x) ws
      [IZR (s_nx s); IZR (s_ny s); s_dx s; s_dy s; s_xlim1 s; s_xlim2 s; s_ylim1 s; s_ylim2 s; IZR n; s_dt s; IZR (print_every s n)].
Proof.
  intros H1 H2 H3 H4. exists [decimal (s_nx s); decimal (s_ny s); fixed10 (s_dx s); fixed10 (s_dy s); fixed10 (s_xlim1 s); fixed10 (s_xlim2 s);
    fixed10 (s_ylim1 s); fixed10 (s_ylim2 s); decimal n; fixed10 (s_dt s); decimal (print_every s n)].
  split; [reflexivity|].
  assert (K : forall z, 0 <= z -> exists v, read_number (decimal z) = Some v /\ near v (IZR z)).
  { intros z Hz. exists (IZR z). split; [apply decimal_number; exact Hz|apply near_refl]. }
  repeat constructor; (apply fixed10_near || (apply K; assumption)).
Qed.
Lemma files_written whole F (s : settings R) n : proper s -> 0 <= n < 4294967296 -> (IZR n <= s_Tfinal s / s_dt s < IZR n + 1)%R -> 0 < print_every s n \/ n = 0 /\ print_every s n = 0 ->
  exists d fs, run_files fixed10 whole F s = Ok (d, fs) /\
    (exists ws, d = join comma ws /\ Forall2 (fun w x => exists v, read_number w = Some v /\ near v x) ws
      [IZR (s_nx s); IZR (s_ny s); s_dx s; s_dy s; s_xlim1 s; s_xlim2 s; s_ylim1 s; s_ylim2 s; IZR n; s_dt s; IZR (print_every s n)]) /\
    forall f, exists bs, fs f = flat_map block_text bs /\
    Z.of_nat (length bs) = 1 + n / print_every s n /\
    forall b blk, nth_error bs b = Some blk ->
      table (s_nx s) (s_ny s) (fun i j w => ten_decimals w /\ exists v, read_number w = Some v /\ near v (file_value whole F s f (b * Z.to_nat (print_every s n)) i j)) blk.
Proof.
  intros P Hn Hq He. destruct (files_layout whole F s n P Hn Hq) as (d & fs & R1 & L); [tauto|]. exists d, fs. split; [exact R1|]. split; [|exact L].
  destruct (run_files_ok whole F s n P Hn Hq) as (fs' & R2 & _); [tauto|]. rewrite R1 in R2. injection R2 as -> _.
  destruct P as (N1 & N2 & _). apply details_words; lia.
Qed.
(** cases *)
Local Open Scope string_scope.
Definition print_s : settings R := mkSet 0%R 1%R 5 0%R 1%R 4 (1 / 8)%R 1%R 1%R 1 3 "SuperConsistent" "RK3".
Local Close Scope string_scope.
Lemma print_case : proper print_s /\ (IZR 8 <= s_Tfinal print_s / s_dt print_s < IZR 8 + 1)%R /\ print_every print_s 8 = 3 /\ (2 * (8 mod 3) <? 3) = false.
Proof. unfold proper. cbn. repeat split; lia || lra. Qed.
Lemma files_load_all whole F (s : settings R) n : proper s -> s_nx s < 2147483648 -> s_ny s < 2147483648 -> 0 <= n < 2147483647 ->
  (IZR n <= s_Tfinal s / s_dt s < IZR n + 1)%R -> 0 < print_every s n < 2147483648 -> 2 * (n mod print_every s n) < print_every s n ->
  exists d fs, run_files fixed10 whole F s = Ok (d, fs) /\ forall f,
    exists bs, rf_load d (fs f) = Some bs /\ Z.of_nat (List.length bs) = 1 + n / print_every s n /\
      forall b blk, nth_error bs b = Some blk ->
        table (s_nx s) (s_ny s) (fun i j v => near v (file_value whole F s f (b * Z.to_nat (print_every s n)) i j)) blk.
Proof.
  intros P M1 M2 Hn Hq He L. destruct (files_load whole F s n P M1 M2 Hn Hq He) as (d & fs & R1 & H). exists d, fs. split; [exact R1|].
  intros f. specialize (H f). rewrite (proj2 (Z.ltb_lt _ _) L) in H. exact H.
Qed.
Lemma files_load_none whole F (s : settings R) n : proper s -> s_nx s < 2147483648 -> s_ny s < 2147483648 -> 0 <= n < 2147483647 ->
  (IZR n <= s_Tfinal s / s_dt s < IZR n + 1)%R -> 0 < print_every s n < 2147483648 -> print_every s n <= 2 * (n mod print_every s n) ->
  exists d fs, run_files fixed10 whole F s = Ok (d, fs) /\ forall f, rf_load d (fs f) = None.
Proof.
  intros P M1 M2 Hn Hq He L. destruct (files_load whole F s n P M1 M2 Hn Hq He) as (d & fs & R1 & H). exists d, fs. split; [exact R1|].
  intros f. specialize (H f). rewrite (proj2 (Z.ltb_ge _ _) L) in H. exact H.
Qed.
