(** Consequences of printing six significant digits. *)
From Coq Require Import ZArith List String Ascii Bool Lia Reals Lra.
From Flocq Require Import Core Relative BinarySingleNaN.
From Verif Require Import Base Num NumB64 ModelVec ModelGrid ModelArray ModelOutput ModelVisualize ModelRefPrint ModelShow SpecGrid SpecOutput SpecVisualize SpecB64 SpecShow
  ProofsB64Cases ProofsOutput ProofsVisualize ProofsRefPrint ProofsShow.
Import ListNotations.
Open Scope R_scope.

Global Instance six_prec : Prec_gt_0 6. Proof. reflexivity. Qed.
Notation F6 := (generic_format ten (FLX_exp 6)).
Lemma six_format q : six_digits q <-> F6 q.
Proof.
  split.
  - intros (k & j & K & ->). apply generic_format_FLX. exists (Float ten k j); [unfold F2R; cbn [Fnum Fexp]; rewrite bpow_powerRZ; reflexivity|exact K].
  - intros H. apply FLX_format_generic in H; [|reflexivity]. destruct H as [[k j] E K]. exists k, j. split; [exact K|]. rewrite E. unfold F2R. cbn [Fnum Fexp]. rewrite bpow_powerRZ. reflexivity.
Qed.
Lemma to_six_error v : Rabs (to_six v - v) <= 5 / 1000000 * Rabs v.
Proof.
  pose proof (relative_error_N_FLX ten 6 eq_refl (fun x => negb (Z.even x)) v) as H. change (bpow ten (- (6) + 1)) with (/ 100000) in H. unfold to_six. lra.
Qed.
Lemma to_six_nearest v : six_digits (to_six v) /\ forall q, six_digits q -> Rabs (to_six v - v) <= Rabs (q - v).
Proof.
  destruct (round_N_pt ten (FLX_exp 6) (fun x => negb (Z.even x)) v) as (A & B). split; [apply six_format; exact A|]. intros q Hq. apply B. apply six_format. exact Hq.
Qed.
Lemma to_six_le v w : v <= w -> to_six v <= to_six w.
Proof. intros H. apply round_le; [apply FLX_exp_valid; reflexivity|apply valid_rnd_N|exact H]. Qed.
Lemma to_six_close_pos q v : six_digits q -> 0 < q -> Rabs (v - q) <= bpow radix2 (-53) * Rabs q -> to_six v = q.
Proof.
  intros Hq Q H. apply six_format in Hq. rewrite (Rabs_pos_eq q) in H by lra. change (bpow radix2 (-53)) with (/ 9007199254740992) in H.
  assert (H' : - (/ 9007199254740992 * q) <= v - q <= / 9007199254740992 * q) by (apply Rabs_le_inv; exact H).
  pose proof (FLX_exp_valid 6) as VE.
  assert (U : bpow ten (-6) * q <= ulp ten (FLX_exp 6) q). { pose proof (ulp_FLX_ge ten 6 q) as K. rewrite Rabs_pos_eq in K by lra. change (- (6))%Z with (-6)%Z in K. rewrite Rmult_comm. exact K. }
  change (bpow ten (-6)) with (/ 1000000) in U.
  assert (S : succ ten (FLX_exp 6) q = q + ulp ten (FLX_exp 6) q) by (apply succ_eq_pos; lra).
  assert (P : pred ten (FLX_exp 6) q <= q - / 10000000 * q).
  { rewrite pred_eq_pos by lra. unfold pred_pos. destruct (Req_bool_spec q (bpow ten (mag ten q - 1))) as [E|E]; [|lra].
    unfold FLX_exp. replace (mag ten q - 1 - 6)%Z with ((mag ten q - 1) + (-6))%Z by lia. rewrite bpow_plus, <- E. change (bpow ten (-6)) with (/ 1000000). lra. }
  apply Rle_antisym; unfold to_six.
  - apply round_N_le_midp; [exact VE|exact Hq|]. rewrite S. lra.
  - apply round_N_ge_midp; [exact VE|exact Hq|]. lra.
Qed.
Lemma to_six_close q v : six_digits q -> Rabs (v - q) <= bpow radix2 (-53) * Rabs q -> to_six v = q.
Proof.
  intros Hq H. destruct (Rtotal_order q 0) as [N|[Z|P]].
  - assert (K : to_six (- v) = - q).
    { apply to_six_close_pos; [|lra|].
      - destruct Hq as (k & j & K & ->). exists (- k)%Z, j. split; [lia|]. rewrite opp_IZR. ring.
      - replace (- v - - q) with (- (v - q)) by ring. rewrite !Rabs_Ropp. exact H. }
    rewrite to_six_opp in K. lra.
  - subst q. rewrite Rabs_R0, Rmult_0_r, Rminus_0_r in H. pose proof (Rabs_pos v). assert (v = 0) by (apply Rabs_eq_R0; lra). subst v. apply to_six_0.
  - apply to_six_close_pos; auto.
Qed.
(** separators do not occur in a printed number *)
Lemma plain_free c l : plain c = false -> forallb plain l = true -> occurs c (string_of_list_ascii l) = false.
Proof.
  intros H. induction l as [|a l IH]; [reflexivity|]. cbn [forallb string_of_list_ascii occurs]. intros K. apply andb_true_iff in K as (K1 & K2). rewrite IH by exact K2.
  destruct (Ascii.eqb_spec a c) as [->|]; [congruence|reflexivity].
Qed.
Lemma show_breaks : (forall x, occurs NL (show_double x) = false) /\ (forall x, occurs TAB (show_double x) = false).
Proof. split; intros x; apply plain_free; try reflexivity; apply show_text_read. Qed.
Lemma show_readable : readable show_double read_double reading_of.
Proof. intros x. apply show_read. Qed.

(** *** equal texts *)
Lemma digits_unique r s a b : (100000 <= r < 1000000)%Z -> (100000 <= s < 1000000)%Z -> IZR r * bpow ten a = IZR s * bpow ten b -> r = s /\ a = b.
Proof.
  intros R S E. assert (M : forall t c, (100000 <= t < 1000000)%Z -> mag ten (IZR t * bpow ten c) = (c + 6)%Z :> Z).
  { intros t c (T1 & T2). apply IZR_le in T1. apply IZR_lt in T2. rewrite mag_mult_bpow by lra. rewrite (mag_unique ten (IZR t) 6); [lia|]. change (bpow ten (6 - 1)) with 100000. change (bpow ten 6) with 1000000. rewrite Rabs_pos_eq; lra. }
  assert (a = b). { pose proof (M r a R) as A. rewrite E, (M s b S) in A. lia. }
  subst b. split; [|reflexivity]. apply eq_IZR. apply (Rmult_eq_reg_r (bpow ten a)); [exact E|]. pose proof (bpow_gt_0 ten a). lra.
Qed.
Lemma show_pos_same n d n' d' : (0 < n)%Z -> (0 < d)%Z -> (0 < n')%Z -> (0 < d')%Z -> to_six (IZR n / IZR d) = to_six (IZR n' / IZR d') -> show_pos n d = show_pos n' d'.
Proof.
  intros A B C D E. unfold show_pos. pose proof (sig6_spec n d A B) as S. pose proof (sig6_spec n' d' C D) as S'. destruct (sig6 n d) as (r & x), (sig6 n' d') as (r' & x').
  destruct S as (S1 & S2), S' as (S1' & S2'). rewrite E, <- S2' in S2. destruct (digits_unique r r' (x - 5) (x' - 5) S1 S1' S2) as (-> & X). assert (x = x') by lia. subst x'. reflexivity.
Qed.
Lemma show_positive x : is_finite x = true -> 0 < real x -> exists n d, (0 < n)%Z /\ (0 < d)%Z /\ real x = IZR n / IZR d /\ show_double x = string_of_list_ascii (show_pos n d).
Proof.
  intros F P. destruct x as [s|s| |s m e B]; try discriminate F; [unfold real in P; cbn [B2R] in P; lra|].
  assert (s = false). { destruct s; [|reflexivity]. unfold real in P. cbn [B2R cond_Zopp] in P. unfold F2R in P. cbn [Fnum Fexp] in P. pose proof (bpow_gt_0 radix2 e). assert (IZR (Z.opp (Z.pos m)) < 0) by (apply (IZR_lt _ 0); lia). exfalso. pose proof (Rmult_lt_compat_r (bpow radix2 e) _ _ H H0). change (Z.opp (Z.pos m)) with (Z.neg m) in *. lra. }
  subst s. unfold show_double, show_text, real. cbn [B2R cond_Zopp app]. unfold F2R. cbn [Fnum Fexp]. destruct (Z.leb_spec 0 e) as [H|H].
  - exists (Z.pos m * 2 ^ e)%Z, 1%Z. split; [apply Z.mul_pos_pos; [lia|apply Z.pow_pos_nonneg; lia]|]. split; [lia|]. split; [|reflexivity].
    rewrite mult_IZR. change (2 ^ e)%Z with (Zpower radix2 e). rewrite (IZR_Zpower radix2 e H). field.
  - exists (Z.pos m), (2 ^ (- e))%Z. split; [lia|]. split; [apply Z.pow_pos_nonneg; lia|]. split; [|reflexivity].
    change (2 ^ (- e))%Z with (Zpower radix2 (- e)). rewrite (IZR_Zpower radix2 (- e)) by lia. rewrite bpow_opp. pose proof (bpow_gt_0 radix2 e). field. lra.
Qed.
Lemma show_same x y : is_finite x = true -> is_finite y = true -> 0 < real x -> 0 < real y -> to_six (real x) = to_six (real y) -> show_double x = show_double y.
Proof.
  intros F G P Q E. destruct (show_positive x F P) as (n & d & N & D & E1 & ->). destruct (show_positive y G Q) as (n' & d' & N' & D' & E2 & ->).
  rewrite E1, E2 in E. f_equal. apply show_pos_same; auto.
Qed.
Lemma to_six_decade e v : powerRZ 10 e <= v < powerRZ 10 (e + 1) -> to_six v = IZR (ZnearestE (v * bpow ten (5 - e))) * bpow ten (e - 5).
Proof.
  intros H. change 10 with (IZR ten) in H. rewrite <- !bpow_powerRZ in H. assert (0 < v) by (pose proof (bpow_gt_0 ten e); lra).
  assert (MG : mag ten v = (e + 1)%Z :> Z). { apply mag_unique. rewrite Rabs_pos_eq by lra. replace (e + 1 - 1)%Z with e by lia. auto. }
  unfold to_six, round, F2R, scaled_mantissa, cexp, FLX_exp. cbn [Fnum Fexp]. rewrite MG. replace (- (e + 1 - 6))%Z with (5 - e)%Z by lia. replace (e + 1 - 6)%Z with (e - 5)%Z by lia. reflexivity.
Qed.
Lemma three_same e x y z : is_finite x = true -> is_finite y = true -> is_finite z = true ->
  powerRZ 10 e <= real x -> real x <= real y <= real z -> real z < powerRZ 10 (e + 1) -> real z - real x < powerRZ 10 (e - 5) ->
  show_double x = show_double y \/ show_double y = show_double z.
Proof.
  intros Fx Fy Fz A (B1 & B2) C D. assert (P : 0 < real x) by (pose proof (powerRZ_lt 10 e ltac:(lra)); lra).
  change 10 with (IZR ten) in D at 1. rewrite <- bpow_powerRZ in D.
  pose proof (to_six_decade e (real x) ltac:(lra)) as X. pose proof (to_six_decade e (real y) ltac:(lra)) as Y. pose proof (to_six_decade e (real z) ltac:(lra)) as Z3.
  set (w := bpow ten (5 - e)) in *. assert (W : 0 < w) by apply bpow_gt_0.
  assert (L1 : (ZnearestE (real x * w) <= ZnearestE (real y * w))%Z) by (apply Zrnd_le; [apply valid_rnd_N|]; apply Rmult_le_compat_r; lra).
  assert (L2 : (ZnearestE (real y * w) <= ZnearestE (real z * w))%Z) by (apply Zrnd_le; [apply valid_rnd_N|]; apply Rmult_le_compat_r; lra).
  assert (D' : real z * w - real x * w < 1).
  { replace 1 with (bpow ten (e - 5) * w). { rewrite <- Rmult_minus_distr_r. apply Rmult_lt_compat_r; assumption. } unfold w. rewrite <- bpow_plus. replace (e - 5 + (5 - e))%Z with 0%Z by lia. reflexivity. }
  pose proof (Znearest_half (fun x => negb (Z.even x)) (real x * w)) as HX. pose proof (Znearest_half (fun x => negb (Z.even x)) (real z * w)) as HZ.
  apply Rabs_le_inv in HX, HZ.
  assert (L3 : (ZnearestE (real z * w) < ZnearestE (real x * w) + 2)%Z). { apply lt_IZR. rewrite plus_IZR. lra. }
  destruct (Z.eq_dec (ZnearestE (real x * w)) (ZnearestE (real y * w))) as [E|E].
  - left. apply show_same; auto; try lra. rewrite X, Y, E. reflexivity.
  - right. apply show_same; auto; try lra. rewrite Y, Z3. assert (K : ZnearestE (real y * w) = ZnearestE (real z * w)) by lia. rewrite K. reflexivity.
Qed.

(** *** files *)
Open Scope Z_scope.
Lemma scalar_file ov dim n pad bmin bmax (g : grid b64) (a : array b64) : built ov dim n pad bmin bmax g -> array_on g a ->
  exists text ts, print_array show_double ov g show_double a = Ok text /\ textscan read_double 4 text = Some ts /\
    Z.of_nat (List.length ts) = vx n * vy n * vz n /\
    forall i j k, interior_cell n (i, j, k) -> exists p v, node ov g i j k = Ok p /\ aget ov g a i j k = Ok v /\
      nth_error ts (Z.to_nat ((i * vy n + j) * vz n + k)) = Some (map reading_of [vx p; vy p; vz p; v]).
Proof.
  intros Hb Ha. destruct show_breaks as (H1 & H2).
  apply (textscan_print show_double read_double reading_of (fun x => [x]) 1 ov dim n pad bmin bmax g show_double a Hb Ha show_readable H1 H2 H1).
  intros x. split; [|reflexivity]. unfold columns. apply split_free. apply H2.
Qed.
Lemma vector_file ov dim n pad bmin bmax (g : grid b64) (a : array (vec3 b64)) : built ov dim n pad bmin bmax g -> array_on g a ->
  exists text ts, print_array show_double ov g (show_vec3 show_double) a = Ok text /\ textscan read_double 6 text = Some ts /\
    Z.of_nat (List.length ts) = vx n * vy n * vz n /\
    forall i j k, interior_cell n (i, j, k) -> exists p v, node ov g i j k = Ok p /\ aget ov g a i j k = Ok v /\
      nth_error ts (Z.to_nat ((i * vy n + j) * vz n + k)) = Some (map reading_of [vx p; vy p; vz p; vx v; vy v; vz v]).
Proof.
  intros Hb Ha. destruct show_breaks as (H1 & H2).
  apply (textscan_print show_double read_double reading_of (fun v => [vx v; vy v; vz v]) 3 ov dim n pad bmin bmax g (show_vec3 show_double) a Hb Ha show_readable H1 H2).
  - intros v. unfold show_vec3. change tab with (String TAB EmptyString). rewrite !occurs_app, !H1. reflexivity.
  - intros v. split; [|reflexivity]. rewrite columns_vec3 by exact H2. reflexivity.
Qed.
Lemma finite_reading x : is_finite x = true -> reading_of x = RNum (to_six (real x)).
Proof. destruct x; try discriminate; reflexivity. Qed.
Lemma finite_shown x : is_finite x = true ->
  exists r, read_double (show_double x) = Some (RNum r) /\ six_digits r /\
    (forall q, six_digits q -> (Rabs (r - real x) <= Rabs (q - real x))%R) /\ (Rabs (r - real x) <= 5 / 1000000 * Rabs (real x))%R.
Proof.
  intros F. exists (to_six (real x)). rewrite show_read, finite_reading by exact F. split; [reflexivity|]. destruct (to_six_nearest (real x)) as (A & B). split; [exact A|]. split; [exact B|apply to_six_error].
Qed.
Lemma shown_order x y : is_finite x = true -> is_finite y = true -> (real x <= real y)%R ->
  exists r s, read_double (show_double x) = Some (RNum r) /\ read_double (show_double y) = Some (RNum s) /\ (r <= s)%R.
Proof. intros F G H. exists (to_six (real x)), (to_six (real y)). rewrite !show_read, !finite_reading by assumption. split; [reflexivity|]. split; [reflexivity|apply to_six_le; exact H]. Qed.
Lemma shown_decimal x q : is_finite x = true -> six_digits q -> (Rabs (real x - q) <= bpow radix2 (-53) * Rabs q)%R -> read_double (show_double x) = Some (RNum q).
Proof. intros F Hq H. rewrite show_read, finite_reading by exact F. rewrite (to_six_close q (real x) Hq H). reflexivity. Qed.
Lemma close_nodes : match node Wrap (grid5 100000 100001) 0 0 0, node Wrap (grid5 100000 100001) 1 0 0 with
  | Ok p, Ok q => (Bcompare (vx p) (vx q), show_double (vx p), show_double (vx q)) = (Some Lt, "100000", "100000")%string
  | _, _ => False end.
Proof. vm_compute. reflexivity. Qed.
Lemma shown_distinct x y : is_finite x = true -> is_finite y = true -> (/ 100000 * Rmax (Rabs (real x)) (Rabs (real y)) < real y - real x)%R ->
  exists r s, read_double (show_double x) = Some (RNum r) /\ read_double (show_double y) = Some (RNum s) /\ (r < s)%R.
Proof.
  intros F G H. exists (to_six (real x)), (to_six (real y)). rewrite !show_read, !finite_reading by assumption. split; [reflexivity|]. split; [reflexivity|].
  pose proof (to_six_error (real x)) as A. pose proof (to_six_error (real y)) as B. apply Rabs_le_inv in A, B.
  pose proof (Rmax_l (Rabs (real x)) (Rabs (real y))). pose proof (Rmax_r (Rabs (real x)) (Rabs (real y))). lra.
Qed.
