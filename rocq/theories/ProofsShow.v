(** Printing and reading doubles. *)
From Coq Require Import ZArith List String Ascii Bool Lia Reals Lra.
From Flocq Require Import Core BinarySingleNaN.
From Verif Require Import Base Num NumB64 ModelRefPrint ModelShow SpecB64 SpecShow ProofsRefPrint.
Import ListNotations.
Open Scope Z_scope.

Lemma power_bpow e : power10 e = bpow ten e.
Proof. unfold power10. rewrite bpow_powerRZ. reflexivity. Qed.
Lemma izr_pow k : 0 <= k -> IZR (10 ^ k) = bpow ten k.
Proof. intros H. apply (IZR_Zpower ten). exact H. Qed.

(** *** digits *)
Lemma ndigits_spec f : forall n, 0 < n < 10 ^ (Z.of_nat f + 1) -> let k := ndigits f n in 1 <= k /\ 10 ^ (k - 1) <= n < 10 ^ k.
Proof.
  induction f as [|f IH]; intros n Hn; cbn [ndigits].
  - cbn in Hn. cbn. lia.
  - destruct (Z.ltb_spec n 10) as [H|H]; [cbn; lia|].
    assert (D : 0 < n / 10 < 10 ^ (Z.of_nat f + 1)).
    { split; [apply Z.div_str_pos; lia|]. apply Z.div_lt_upper_bound; [lia|]. replace (Z.of_nat (S f) + 1) with (Z.succ (Z.of_nat f + 1)) in Hn by lia. rewrite Z.pow_succ_r in Hn by lia. lia. }
    specialize (IH _ D). cbv zeta in *. set (k := ndigits f (n / 10)) in *. destruct IH as (K1 & K2 & K3). split; [lia|].
    pose proof (Z.div_mod n 10 ltac:(lia)). pose proof (Z.mod_pos_bound n 10 ltac:(lia)).
    replace (1 + k - 1) with (Z.succ (k - 1)) by lia. replace (1 + k) with (Z.succ k) by lia. rewrite !Z.pow_succ_r by lia. lia.
Qed.
Lemma dlen_spec n : 0 < n -> 1 <= dlen n /\ 10 ^ (dlen n - 1) <= n < 10 ^ dlen n.
Proof.
  intros H. apply ndigits_spec. split; [exact H|]. pose proof (Z.log2_nonneg n). rewrite Z2Nat.id by lia.
  pose proof (Z.log2_spec n H) as (_ & L). apply Z.lt_le_trans with (1 := L). replace (Z.succ (Z.log2 n)) with (Z.log2 n + 1) by lia.
  apply Z.pow_le_mono_l. lia.
Qed.

Section Fraction.
Variables (n d : Z).
Hypothesis (Hn : 0 < n) (Hd : 0 < d).
Let v : R := (IZR n / IZR d)%R.
Lemma d_pos : (0 < IZR d)%R. Proof. apply (IZR_lt 0). exact Hd. Qed.
Lemma v_pos : (0 < v)%R.
Proof. apply Rdiv_lt_0_compat; [apply (IZR_lt 0); exact Hn|apply d_pos]. Qed.
Lemma scaled_spec k : let (p, q) := scaled n d k in 0 < p /\ 0 < q /\ (IZR p / IZR q = v * bpow ten k)%R.
Proof.
  pose proof d_pos. unfold scaled. destruct (Z.leb_spec 0 k) as [K|K].
  - pose proof (Z.pow_pos_nonneg 10 k ltac:(lia) K). split; [apply Z.mul_pos_pos; lia|]. split; [exact Hd|]. rewrite mult_IZR, izr_pow by exact K. unfold v. field. lra.
  - pose proof (Z.pow_pos_nonneg 10 (- k) ltac:(lia) ltac:(lia)). split; [exact Hn|]. split; [apply Z.mul_pos_pos; lia|]. rewrite mult_IZR, izr_pow by lia. rewrite bpow_opp. pose proof (bpow_gt_0 ten k). unfold v. field. lra.
Qed.
Lemma expo10_spec : let x := expo10 n d in (bpow ten x <= v < bpow ten (x + 1))%R.
Proof.
  pose proof d_pos as dp. destruct (dlen_spec n Hn) as (N0 & N1 & N2). destruct (dlen_spec d Hd) as (D0 & D1 & D2).
  apply IZR_le in N1, D1. apply IZR_lt in N2, D2. rewrite izr_pow in N1, N2, D1, D2 by lia.
  unfold expo10. cbv zeta. set (a := dlen n - dlen d) in *. pose proof (scaled_spec (- a)) as S. destruct (scaled n d (- a)) as (p & q). destruct S as (P & Q & E).
  assert (Q' : (0 < IZR q)%R) by (apply (IZR_lt 0); exact Q). rewrite bpow_opp in E. pose proof (bpow_gt_0 ten a) as B.
  assert (EV : (v = IZR p / IZR q * bpow ten a)%R). { rewrite E. field. lra. }
  assert (U : (v < bpow ten (a + 1))%R).
  { unfold v. apply (Rmult_lt_reg_r (IZR d)); [exact dp|]. unfold Rdiv. rewrite Rmult_assoc, Rinv_l, Rmult_1_r by lra.
    apply Rlt_le_trans with (1 := N2). replace (dlen n) with (a + 1 + (dlen d - 1)) by (unfold a; lia). rewrite bpow_plus. apply Rmult_le_compat_l; [apply bpow_ge_0|exact D1]. }
  assert (L : (bpow ten (a - 1) <= v)%R).
  { unfold v. apply (Rmult_le_reg_r (IZR d)); [exact dp|]. unfold Rdiv. rewrite Rmult_assoc, Rinv_l, Rmult_1_r by lra.
    apply Rle_trans with (2 := N1). replace (dlen n - 1) with (a - 1 + dlen d) by (unfold a; lia). rewrite bpow_plus. apply Rmult_le_compat_l; [apply bpow_ge_0|lra]. }
  destruct (Z.leb_spec q p) as [C|C].
  - split; [|exact U]. rewrite EV. apply IZR_le in C. rewrite <- (Rmult_1_l (bpow ten a)) at 1. apply Rmult_le_compat_r; [lra|].
    apply (Rmult_le_reg_r (IZR q)); [exact Q'|]. unfold Rdiv. rewrite Rmult_assoc, Rinv_l; lra.
  - split; [exact L|]. replace (a - 1 + 1) with a by lia. rewrite EV. apply IZR_lt in C. rewrite <- (Rmult_1_l (bpow ten a)) at 2. apply Rmult_lt_compat_r; [lra|].
    apply (Rmult_lt_reg_r (IZR q)); [exact Q'|]. unfold Rdiv. rewrite Rmult_assoc, Rinv_l; lra.
Qed.
End Fraction.
Lemma round_div_spec p q : 0 < q -> round_div p q = ZnearestE (IZR p / IZR q).
Proof.
  intros Hq. assert (Q' : (0 < IZR q)%R) by (apply (IZR_lt 0); exact Hq).
  pose proof (Z.div_mod p q ltac:(lia)) as DM. pose proof (Z.mod_pos_bound p q Hq) as MB.
  assert (E : (IZR p / IZR q = IZR (p / q) + IZR (p mod q) / IZR q)%R). { rewrite DM at 1. rewrite plus_IZR, mult_IZR. field. lra. }
  assert (F : Zfloor (IZR p / IZR q) = p / q).
  { apply Zfloor_imp. rewrite E, plus_IZR. destruct MB as (M1 & M2). apply IZR_le in M1. apply IZR_lt in M2.
    assert (0 <= IZR (p mod q) / IZR q)%R by (apply Rmult_le_pos; [exact M1|left; apply Rinv_0_lt_compat; exact Q']).
    assert (IZR (p mod q) / IZR q < 1)%R by (apply (Rmult_lt_reg_r (IZR q)); [exact Q'|]; unfold Rdiv; rewrite Rmult_assoc, Rinv_l; lra). lra. }
  assert (G : p mod q <> 0 -> Zceil (IZR p / IZR q) = p / q + 1).
  { intros N. rewrite Zceil_floor_neq; [rewrite F; reflexivity|]. rewrite F, E. intros K. apply N. apply eq_IZR. apply (Rmult_eq_reg_r (/ IZR q)); [lra|apply Rinv_neq_0_compat; lra]. }
  unfold round_div. cbv zeta. unfold Znearest. rewrite F.
  replace (IZR p / IZR q - IZR (p / q))%R with (IZR (p mod q) / IZR q)%R by lra.
  assert (C : Rcompare (IZR (p mod q) / IZR q) (/ 2) = (2 * (p mod q) ?= q)).
  { destruct (Z.compare_spec (2 * (p mod q)) q) as [A|A|A].
    - apply Rcompare_Eq. apply (f_equal IZR) in A. rewrite mult_IZR in A. apply (Rmult_eq_reg_r (IZR q)); [|lra]. unfold Rdiv. rewrite Rmult_assoc, Rinv_l; lra.
    - apply Rcompare_Lt. apply IZR_lt in A. rewrite mult_IZR in A. apply (Rmult_lt_reg_r (IZR q)); [exact Q'|]. unfold Rdiv. rewrite Rmult_assoc, Rinv_l; lra.
    - apply Rcompare_Gt. apply IZR_lt in A. rewrite mult_IZR in A. apply (Rmult_lt_reg_r (IZR q)); [exact Q'|]. unfold Rdiv. rewrite Rmult_assoc, Rinv_l; lra. }
  rewrite C. unfold Z.ltb. rewrite (Z.compare_antisym (2 * (p mod q)) q). destruct (Z.compare_spec (2 * (p mod q)) q) as [A|A|A]; cbn [CompOpp].
  - rewrite G by lia. destruct (Z.even (p / q)); reflexivity.
  - reflexivity.
  - rewrite G by lia. reflexivity.
Qed.
Lemma sig6_spec n d : 0 < n -> 0 < d -> let (r, x) := sig6 n d in
  100000 <= r < 1000000 /\ (IZR r * bpow ten (x - 5) = to_six (IZR n / IZR d))%R.
Proof.
  intros Hn Hd. unfold sig6. cbv zeta. pose proof (expo10_spec n d Hn Hd) as (L & U). pose proof (v_pos n d Hn Hd) as V. set (x := expo10 n d) in *. set (v := (IZR n / IZR d)%R) in *.
  pose proof (scaled_spec n d Hn Hd (5 - x)) as S. destruct (scaled n d (5 - x)) as (p & q). destruct S as (P & Q & E). fold v in E.
  rewrite (round_div_spec p q Q), E.
  assert (MG : mag ten v = (x + 1) :> Z). { apply mag_unique. rewrite Rabs_pos_eq by lra. replace (x + 1 - 1) with x by lia. auto. }
  assert (RD : to_six v = (IZR (ZnearestE (v * bpow ten (5 - x))) * bpow ten (x - 5))%R).
  { unfold to_six, round, F2R, scaled_mantissa, cexp, FLX_exp. cbn [Fnum Fexp]. rewrite MG. replace (- (x + 1 - 6)) with (5 - x) by lia. replace (x + 1 - 6) with (x - 5) by lia. reflexivity. }
  set (r := ZnearestE (v * bpow ten (5 - x))) in *.
  assert (B1 : (100000 <= v * bpow ten (5 - x))%R).
  { replace 100000%R with (bpow ten x * bpow ten (5 - x))%R; [apply Rmult_le_compat_r; [apply bpow_ge_0|exact L]|]. rewrite <- bpow_plus. replace (x + (5 - x)) with 5 by lia. reflexivity. }
  assert (B2 : (v * bpow ten (5 - x) <= 1000000)%R).
  { replace 1000000%R with (bpow ten (x + 1) * bpow ten (5 - x))%R; [apply Rmult_le_compat_r; [apply bpow_ge_0|lra]|]. rewrite <- bpow_plus. replace (x + 1 + (5 - x)) with 6 by lia. reflexivity. }
  assert (R1 : 100000 <= r). { unfold r. rewrite <- (Zrnd_IZR ZnearestE 100000). apply Zrnd_le; [apply valid_rnd_N|exact B1]. }
  assert (R2 : r <= 1000000). { unfold r. rewrite <- (Zrnd_IZR ZnearestE 1000000). apply Zrnd_le; [apply valid_rnd_N|exact B2]. }
  destruct (Z.eqb_spec r 1000000) as [R|R].
  - split; [lia|]. rewrite RD, R. replace (x + 1 - 5) with (x - 5 + 1) by lia. rewrite bpow_plus. change (bpow ten 1) with 10%R. lra.
  - split; [lia|]. symmetry. exact RD.
Qed.

(** *** texts of digits *)
Lemma value_app a b : value_of (a ++ b) = value_of a * 10 ^ Z.of_nat (length b) + value_of b.
Proof. unfold value_of at 1. rewrite fold_left_app. rewrite value_acc. reflexivity. Qed.
Lemma zeros_digits k : forallb is_digit (repeat (digit 0) k) = true.
Proof. induction k; [reflexivity|exact IHk]. Qed.
Lemma zeros_value k : value_of (repeat (digit 0) k) = 0.
Proof. induction k as [|k IH]; [reflexivity|]. cbn [repeat]. rewrite value_cons by lia. lia. Qed.
Lemma strip_front_spec l : exists k, l = repeat (digit 0) k ++ strip_front l.
Proof.
  induction l as [|c l (k & IH)]; [exists 0%nat; reflexivity|]. cbn [strip_front]. destruct (Ascii.eqb_spec c "0") as [->|]; [|exists 0%nat; reflexivity].
  exists (S k). cbn [repeat app]. rewrite <- IH. reflexivity.
Qed.
Lemma rev_repeat {A} (a : A) k : rev (repeat a k) = repeat a k.
Proof. induction k as [|k IH]; [reflexivity|]. cbn [repeat rev]. rewrite IH, <- repeat_cons. reflexivity. Qed.
Lemma strip_spec l : exists k, l = strip l ++ repeat (digit 0) k.
Proof.
  destruct (strip_front_spec (rev l)) as (k & E). exists k. unfold strip. apply (f_equal (@rev ascii)) in E. rewrite rev_involutive, rev_app_distr, rev_repeat in E. exact E.
Qed.
Definition pointy (c : ascii) : bool := (is_digit c || Ascii.eqb c dot)%bool.
Lemma digits_pointy l : forallb is_digit l = true -> forallb pointy l = true.
Proof. apply forallb_imp. intros c H. unfold pointy. rewrite H. reflexivity. Qed.
Lemma dot_free l : forallb is_digit l = true -> forallb (fun c => negb (Ascii.eqb dot c)) l = true.
Proof. apply forallb_imp. intros c Hc. rewrite (digit_not c dot Hc); reflexivity. Qed.
Lemma pointed_spec k l : forallb is_digit l = true -> (0 < k <= length l)%nat ->
  forallb pointy (pointed k l) = true /\ (exists c u, pointed k l = c :: u /\ is_digit c = true) /\
  exists m z, read_mantissa (pointed k l) = Some (m, z) /\ (IZR z * bpow ten (- Z.of_nat m) = IZR (value_of l) * bpow ten (- Z.of_nat (length l - k)))%R.
Proof.
  intros Hl Hk. rewrite <- (firstn_skipn k l) in Hl. rewrite forallb_app in Hl. apply andb_true_iff in Hl as (A & B).
  assert (LA : length (firstn k l) = k) by (rewrite firstn_length; lia). assert (LB : length (skipn k l) = (length l - k)%nat) by apply skipn_length.
  assert (EL : value_of l = value_of (firstn k l) * 10 ^ Z.of_nat (length l - k) + value_of (skipn k l)). { rewrite <- LB, <- value_app, firstn_skipn. reflexivity. }
  rewrite EL. clear EL. unfold pointed. rewrite <- LB. set (a := firstn k l) in *. set (b := skipn k l) in *. clearbody a b. clear LB.
  destruct (strip_spec b) as (y & E). set (f := strip b) in *. clearbody f. subst b.
  rewrite forallb_app in B. apply andb_true_iff in B as (B & _). rewrite value_app, zeros_value, app_length, !repeat_length.
  assert (NA : a <> []) by (intros ->; cbn in LA; lia).
  assert (Y : (IZR (10 ^ Z.of_nat y) = bpow ten (Z.of_nat y))%R) by (apply izr_pow; lia).
  assert (F : (IZR (10 ^ Z.of_nat (length f)) = bpow ten (Z.of_nat (length f)))%R) by (apply izr_pow; lia).
  pose proof (bpow_gt_0 ten (Z.of_nat y)) as Y0. pose proof (bpow_gt_0 ten (Z.of_nat (length f))) as F0.
  assert (VAL : (IZR (value_of (a ++ f)) * bpow ten (- Z.of_nat (length f)) =
     IZR (value_of a * 10 ^ Z.of_nat (length f + y) + (value_of f * 10 ^ Z.of_nat y + 0)) * bpow ten (- Z.of_nat (length f + y)))%R).
  { rewrite value_app, Nat2Z.inj_add, Z.pow_add_r, Z.opp_add_distr, bpow_plus, !bpow_opp by lia. rewrite !plus_IZR, !mult_IZR, Y, F. field. lra. }
  split; [|split].
  - rewrite forallb_app, (digits_pointy a A). destruct f as [|c f]; [reflexivity|]. exact (digits_pointy (c :: f) B).
  - destruct a as [|c a]; [congruence|]. eexists. eexists. split; [reflexivity|]. cbn [forallb] in A. apply andb_true_iff in A as (A & _). exact A.
  - unfold read_mantissa. destruct f as [|c f].
    + rewrite app_nil_r in *. rewrite split_end by (apply dot_free; exact A). cbn [rev app]. rewrite (read_int_of a A NA). cbn [option_map]. eexists. eexists. split; [reflexivity|exact VAL].
    + rewrite split_app by (try (apply dot_free; exact A); reflexivity). rewrite split_end by (apply dot_free; exact B). cbn [rev app]. rewrite (read_int_of a A NA), (read_int_of (c :: f) B) by congruence.
      eexists. eexists. split; [reflexivity|exact VAL].
Qed.
Lemma pointy_not c : pointy c = true -> Ascii.eqb "e" c = false.
Proof.
  unfold pointy. intros H. destruct (Ascii.eqb_spec "e" c) as [<-|]; [|reflexivity]. discriminate H.
Qed.
Lemma e_free l : forallb pointy l = true -> forallb (fun c => negb (Ascii.eqb "e" c)) l = true.
Proof. apply forallb_imp. intros c H. rewrite (pointy_not c H). reflexivity. Qed.
(** characters of a printed number *)
Definition plain (c : ascii) : bool := (pointy c || Ascii.eqb c "e" || Ascii.eqb c minus || Ascii.eqb c "+" || Ascii.eqb c "i" || Ascii.eqb c "n" || Ascii.eqb c "f" || Ascii.eqb c "a")%bool.
Lemma pointy_plain l : forallb pointy l = true -> forallb plain l = true.
Proof. apply forallb_imp. intros c H. unfold plain. rewrite H. reflexivity. Qed.
Lemma exponent_spec x : exists l, exponent_text x = "e"%char :: l /\ read_exponent l = Some x /\ forallb plain (exponent_text x) = true /\
  forallb (fun c => negb (Ascii.eqb "e" c)) l = true.
Proof.
  unfold exponent_text. eexists. split; [reflexivity|].
  destruct (decimal_spec (Z.abs x) ltac:(lia)) as (A & B & C). set (w := if Z.abs x <? 10 then digit 0 :: decimal (Z.abs x) else decimal (Z.abs x)).
  assert (W : forallb is_digit w = true /\ value_of w = Z.abs x /\ w <> []).
  { unfold w. destruct (Z.abs x <? 10); [|auto]. split; [exact A|]. split; [rewrite value_cons by lia; lia|congruence]. }
  clearbody w. clear A B C. destruct W as (A & B & C).
  assert (P : forallb plain w = true) by (apply pointy_plain, digits_pointy; exact A). split; [|split].
  - cbn [read_exponent]. destruct (Z.ltb_spec x 0); cbn [Ascii.eqb Bool.eqb minus].
    + change (Ascii.eqb minus minus) with true. cbn iota. rewrite (read_int_of w A C), B. cbn [option_map]. f_equal. lia.
    + change (Ascii.eqb "+" minus) with false. change (Ascii.eqb "+" "+") with true. cbn iota. rewrite (read_int_of w A C), B. f_equal. lia.
  - cbn [forallb]. rewrite P. destruct (x <? 0); reflexivity.
  - cbn [forallb]. rewrite (e_free w (digits_pointy w A)). destruct (x <? 0); reflexivity.
Qed.
Lemma show_pos_spec n d : 0 < n -> 0 < d ->
  forallb plain (show_pos n d) = true /\ (exists c u, show_pos n d = c :: u /\ is_digit c = true) /\
  read_positive (show_pos n d) = Some (to_six (IZR n / IZR d)).
Proof.
  intros Hn Hd. unfold show_pos. pose proof (sig6_spec n d Hn Hd) as S. destruct (sig6 n d) as (r & x). destruct S as (R1 & R2). rewrite <- R2.
  destruct (last_digits_spec 6 r [] ltac:(lia) eq_refl) as (A & B & C). cbn [length Nat.add] in B. change (10 ^ Z.of_nat 6) with 1000000 in C. change (value_of []) with 0 in C. change (Z.of_nat (length (@nil ascii))) with 0 in C.
  rewrite Z.mod_small, Z.mul_1_r, Z.add_0_r in C by lia. set (l := last_digits 6 r []) in *. clearbody l.
  assert (SCI : forallb plain (pointed 1 l ++ exponent_text x) = true /\ (exists c u, pointed 1 l ++ exponent_text x = c :: u /\ is_digit c = true) /\
    read_positive (pointed 1 l ++ exponent_text x) = Some (IZR r * bpow ten (x - 5))%R).
  { destruct (pointed_spec 1 l A ltac:(lia)) as (P1 & (c & u & P2 & P2') & m & z & P3 & P4). destruct (exponent_spec x) as (e & E1 & E2 & E3 & E4).
    split; [rewrite forallb_app, E3, (pointy_plain _ P1); reflexivity|]. split; [rewrite P2; eexists; eexists; split; [reflexivity|exact P2']|].
    rewrite E1. unfold read_positive. rewrite split_app by (try (apply e_free; exact P1); reflexivity). rewrite split_end by exact E4. cbn [rev app]. rewrite P3, E2. cbn [fst snd].
    f_equal. rewrite power_bpow. unfold Z.sub. rewrite !bpow_plus. rewrite (Rmult_comm (bpow ten x)), <- Rmult_assoc, P4, C, B. change (- Z.of_nat (6 - 1)) with (- (5)). ring. }
  destruct (Z.leb_spec (-4) x) as [X1|X1]; [destruct (Z.ltb_spec x 6) as [X2|X2]|]; cbn [andb].
  - set (w := repeat (digit 0) (Z.to_nat (- x)) ++ l).
    assert (W : forallb is_digit w = true) by (unfold w; rewrite forallb_app, zeros_digits; exact A).
    assert (WL : length w = (Z.to_nat (- x) + 6)%nat) by (unfold w; rewrite app_length, repeat_length, B; reflexivity).
    assert (WV : value_of w = r) by (unfold w; rewrite value_app, zeros_value, C; lia).
    destruct (pointed_spec (Z.to_nat (Z.max x 0 + 1)) w W ltac:(lia)) as (P1 & P2 & m & z & P3 & P4).
    split; [apply pointy_plain; exact P1|]. split; [exact P2|]. unfold read_positive. rewrite split_end by (apply e_free; exact P1). cbn [rev app]. rewrite P3. cbn [option_map fst snd].
    rewrite power_bpow, P4, WV, WL. repeat f_equal. lia.
  - exact SCI.
  - exact SCI.
Qed.

(** *** doubles *)
Lemma to_six_opp v : to_six (- v) = (- to_six v)%R.
Proof. apply round_NE_opp. Qed.
Lemma to_six_0 : to_six 0 = 0%R.
Proof. apply round_0. apply valid_rnd_N. Qed.
Lemma digit_word c u w : is_digit c = true -> match w with String a _ => is_digit a = false | EmptyString => True end -> String.eqb (string_of_list_ascii (c :: u)) w = false.
Proof. intros H K. destruct (String.eqb_spec (string_of_list_ascii (c :: u)) w) as [E|]; [|reflexivity]. subst w. cbn in K. congruence. Qed.
Lemma sign_word (s : bool) c u : is_digit c = true -> read_sign ((if s then [minus] else []) ++ c :: u) = (s, c :: u).
Proof.
  intros H. destruct s; [reflexivity|]. cbn [app read_sign]. destruct (Ascii.eqb_spec c minus) as [->|]; [discriminate H|reflexivity].
Qed.
Lemma signed_read (s : bool) w r : (exists c u, w = c :: u /\ is_digit c = true) -> read_positive w = Some r ->
  read_text ((if s then [minus] else []) ++ w) = Some (RNum (if s then (- r)%R else r)).
Proof.
  intros (c & u & -> & H) E. unfold read_text. rewrite sign_word by exact H. rewrite !digit_word by (try exact H; reflexivity). rewrite E. reflexivity.
Qed.
Lemma show_text_read x : forallb plain (show_text x) = true /\ read_text (show_text x) = Some (reading_of x).
Proof.
  destruct x as [s|s| |s m e B].
  - cbn [show_text reading_of]. split; [destruct s; reflexivity|]. rewrite (signed_read s [digit 0] 0%R); [|eexists; eexists; split; reflexivity|].
    + cbn [real B2R]. rewrite to_six_0. destruct s; [rewrite Ropp_0|]; reflexivity.
    + unfold read_positive. change (split (Ascii.eqb "e") [digit 0] []) with [[digit 0]]. cbn iota. change (read_mantissa [digit 0]) with (Some (0%nat, 0)). cbn [option_map fst snd]. rewrite Rmult_0_l. reflexivity.
  - split; destruct s; reflexivity.
  - split; reflexivity.
  - set (w := if 0 <=? e then show_pos (Z.pos m * 2 ^ e) 1 else show_pos (Z.pos m) (2 ^ (- e))). set (v := (IZR (Z.pos m) * bpow radix2 e)%R).
    assert (W : forallb plain w = true /\ (exists c u, w = c :: u /\ is_digit c = true) /\ read_positive w = Some (to_six v)).
    { unfold w. destruct (Z.leb_spec 0 e) as [H|H].
      - replace v with (IZR (Z.pos m * 2 ^ e) / IZR 1)%R; [apply show_pos_spec; [|lia]; apply Z.mul_pos_pos; [lia|apply Z.pow_pos_nonneg; lia]|].
        rewrite mult_IZR. change (2 ^ e) with (Zpower radix2 e). rewrite (IZR_Zpower radix2 e H). unfold v. field.
      - replace v with (IZR (Z.pos m) / IZR (2 ^ (- e)))%R; [apply show_pos_spec; [lia|apply Z.pow_pos_nonneg; lia]|].
        change (2 ^ (- e)) with (Zpower radix2 (- e)). rewrite (IZR_Zpower radix2 (- e)) by lia. rewrite bpow_opp. unfold v. pose proof (bpow_gt_0 radix2 e). field. lra. }
    destruct W as (W1 & W2 & W3). change (show_text (B754_finite s m e B)) with ((if s then [minus] else []) ++ w). clearbody w. split; [rewrite forallb_app, W1; destruct s; reflexivity|]. rewrite (signed_read s w (to_six v) W2 W3).
    unfold reading_of, real. cbn [B2R]. unfold F2R. cbn [Fnum Fexp]. destruct s; cbn [cond_Zopp].
    + change (Z.neg m) with (- Z.pos m). rewrite opp_IZR, Ropp_mult_distr_l_reverse, to_six_opp. reflexivity.
    + reflexivity.
Qed.
Lemma show_read x : read_double (show_double x) = Some (reading_of x).
Proof. unfold read_double, show_double. rewrite list_ascii_of_string_of_list_ascii. apply show_text_read. Qed.
