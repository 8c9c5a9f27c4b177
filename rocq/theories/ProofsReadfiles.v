(** What Readfiles.m shows. *)
From Coq Require Import ZArith List String Ascii Reals Lra Lia Bool.
From Verif Require Import Base Num NumB64 ModelVec ModelRefMath ModelRefMem ModelRef ModelRefPrint SpecRefRun SpecRefPrint ProofsRefPrint ModelReadfiles SpecReadfiles.
Import ListNotations.
Open Scope list_scope.
Open Scope Z_scope.

Lemma both x a : (Rabs x <= a -> - a <= x <= a)%R.
Proof. unfold Rabs. destruct (Rcase_abs x); lra. Qed.
(** *** largest entries *)
Lemma max_ge {A} (g : A -> R) l x : In x l -> (g x <= fold_right (fun p m => Rmax (g p) m) 0 l)%R.
Proof.
  induction l as [|y l IH]; [contradiction|]. intros [->|I]; cbn; [apply Rmax_l|]. eapply Rle_trans; [exact (IH I)|apply Rmax_r].
Qed.
Lemma max_nonneg {A} (g : A -> R) l : (0 <= fold_right (fun p m => Rmax (g p) m) 0 l)%R.
Proof. induction l; cbn; [lra|]. eapply Rle_trans; [exact IHl|apply Rmax_r]. Qed.
Lemma max_at {A} (g : A -> R) l : l <> [] -> (forall x, (0 <= g x)%R) -> exists x, In x l /\ g x = fold_right (fun p m => Rmax (g p) m) 0%R l.
Proof.
  intros N G. induction l as [|y l IH]; [contradiction|]. cbn. destruct l as [|z l].
  - exists y. split; [now left|]. cbn. rewrite Rmax_left; [reflexivity|apply G].
  - destruct IH as (x & I & E); [discriminate|]. rewrite <- E. destruct (Rle_dec (g y) (g x)).
    + exists x. split; [now right|]. now rewrite Rmax_right.
    + exists y. split; [now left|]. rewrite Rmax_left; [reflexivity|lra].
Qed.
Lemma combine_nth_error {A B} (a : list A) (b : list B) k x y : nth_error a k = Some x -> nth_error b k = Some y -> nth_error (combine a b) k = Some (x, y).
Proof. revert b k; induction a as [|u a IH]; intros [|w b] [|k]; cbn; try discriminate; intros H1 H2; [congruence|]. apply IH; assumption. Qed.
Lemma in_combine_nth {A B} (a : list A) (b : list B) p : In p (combine a b) -> exists k, nth_error a k = Some (fst p) /\ nth_error b k = Some (snd p).
Proof.
  revert b; induction a as [|u a IH]; intros [|w b]; cbn; try contradiction. intros [<-|I]; [exists 0%nat; split; reflexivity|].
  destruct (IH b I) as (k & H). exists (S k). exact H.
Qed.
Lemma combine_nil {A B} (a : list A) (b : list B) : length a = length b -> a <> [] -> combine a b <> [].
Proof. destruct a, b; cbn; try discriminate; congruence. Qed.
Lemma row_nonneg a b : (0 <= row_max a b)%R. Proof. apply max_nonneg. Qed.
Lemma table_ge nx ny (P Q : Z -> Z -> R -> Prop) a b i j ra rb x y : table nx ny P a -> table nx ny Q b ->
  nth_error a i = Some ra -> nth_error b i = Some rb -> nth_error ra j = Some x -> nth_error rb j = Some y -> (Rabs (Rabs x - Rabs y) <= table_max a b)%R.
Proof.
  intros _ _ A B X Y. eapply Rle_trans; [|exact (max_ge (fun p => row_max (fst p) (snd p)) _ _ (nth_error_In _ _ (combine_nth_error _ _ _ _ _ A B)))].
  cbn [fst snd]. exact (max_ge (fun p => Rabs (Rabs (fst p) - Rabs (snd p))) _ _ (nth_error_In _ _ (combine_nth_error _ _ _ _ _ X Y))).
Qed.
Lemma table_at nx ny (P Q : Z -> Z -> R -> Prop) a b : 1 <= nx -> 1 <= ny -> table nx ny P a -> table nx ny Q b ->
  exists i j x y, 0 <= i < ny /\ 0 <= j < nx /\ P i j x /\ Q i j y /\ Rabs (Rabs x - Rabs y) = table_max a b.
Proof.
  intros X Y [La Pa] [Lb Pb].
  destruct (max_at (fun p : list R * list R => row_max (fst p) (snd p)) (combine a b)) as ((ra & rb) & I & E); [apply combine_nil; [lia|destruct a; [cbn in La; lia|discriminate]]|intros; apply row_nonneg|].
  apply in_combine_nth in I as (i & Ia & Ib). cbn [fst snd] in *. destruct (Pa i ra Ia) as [Lra Pra]. destruct (Pb i rb Ib) as [Lrb Prb].
  destruct (max_at (fun p : R * R => Rabs (Rabs (fst p) - Rabs (snd p))) (combine ra rb)) as ((x & y) & J & E2); [apply combine_nil; [lia|destruct ra; [cbn in Lra; lia|discriminate]]|intros; apply Rabs_pos|].
  apply in_combine_nth in J as (j & Ja & Jb). cbn [fst snd] in *.
  assert (i < length a)%nat by (apply nth_error_Some; congruence). assert (j < length ra)%nat by (apply nth_error_Some; congruence).
  exists (Z.of_nat i), (Z.of_nat j), x, y. split; [lia|]. split; [lia|]. split; [apply Pra, Ja|]. split; [apply Prb, Jb|]. rewrite E2. exact E.
Qed.
(** reading a table at a node *)
Lemma table_entry {A} nx ny (P : Z -> Z -> A -> Prop) a i j : table nx ny P a -> 0 <= i < ny -> 0 <= j < nx ->
  exists r x, nth_error a (Z.to_nat i) = Some r /\ nth_error r (Z.to_nat j) = Some x /\ P i j x.
Proof.
  intros [L Pa] I J. destruct (nth_error a (Z.to_nat i)) as [r|] eqn:E; [|apply nth_error_None in E; lia]. destruct (Pa _ _ E) as [Lr Pr].
  destruct (nth_error r (Z.to_nat j)) as [x|] eqn:E2; [|apply nth_error_None in E2; lia]. exists r, x. split; [reflexivity|]. split; [exact E2|].
  specialize (Pr _ _ E2). rewrite !Z2Nat.id in Pr by lia. exact Pr.
Qed.

(** *** the details *)
Lemma details_reals (s : settings R) n : 0 <= s_nx s < 2147483648 -> 0 <= s_ny s < 2147483648 -> 0 <= n < 2147483648 -> 0 <= print_every s n < 2147483648 ->
  rf_reals (details fixed10 s n) = Some (back (s_xlim1 s), back (s_xlim2 s), back (s_ylim1 s), back (s_ylim2 s), back (s_dt s)).
Proof.
  intros H1 H2 H3 H4. unfold rf_reals, details.
  assert (Dc : forall z, 0 <= z -> forallb (fun c => negb (sepb c)) (decimal z) = true) by (intros; apply digits_nosep, decimal_spec; assumption).
  assert (Fx : forall x, forallb (fun c => negb (sepb c)) (fixed10 x) = true) by (intros; apply shape_nosep, fixed10_shape).
  rewrite !split_comma by (apply Fx || (apply Dc; lia)).
  rewrite split_end.
  2:{ generalize (Dc (print_every s n) ltac:(lia)). apply forallb_imp. intros c Hc. unfold sepb in Hc. apply negb_true_iff, orb_false_iff in Hc as [-> _]. reflexivity. }
  cbn [rev app]. rewrite !back_read. reflexivity.
Qed.
Lemma near_convex a b a' b' t : (0 <= t <= 1)%R -> near a' a -> near b' b -> near (a' + t * (b' - a'))%R (a + t * (b - a))%R.
Proof.
  unfold near. set (e := (/ 2 * / 10 ^ 10)%R). intros T A B. replace (a' + t * (b' - a') - (a + t * (b - a)))%R with ((1 - t) * (a' - a) + t * (b' - b))%R by ring.
  eapply Rle_trans; [apply Rabs_triang|]. rewrite !Rabs_mult, (Rabs_pos_eq (1 - t)), (Rabs_pos_eq t) by lra.
  assert ((1 - t) * Rabs (a' - a) <= (1 - t) * e)%R by (apply Rmult_le_compat_l; lra). assert (t * Rabs (b' - b) <= t * e)%R by (apply Rmult_le_compat_l; lra). lra.
Qed.
Lemma linspace_near a b a' b' n : 2 <= n < 4294967296 -> near a' a -> near b' b ->
  Z.of_nat (length (linspace a' b' n)) = n /\ forall j x, nth_error (linspace a' b' n) j = Some x -> near x (even_nodes (T := R) a ((b - a) / IZR (u32 (n - 1)))%R (Z.of_nat j)).
Proof.
  intros N A B. split; [unfold linspace; rewrite map_length, range_len; lia|]. intros j x H. unfold linspace in H. rewrite nth_error_map in H.
  destruct (nth_error (range 0 n) j) as [v|] eqn:E; [|discriminate]. apply nth_range in E as [-> J]. cbn [option_map] in H. injection H as <-.
  unfold u32. rewrite Z.mod_small by lia. unfold even_nodes. cbn.
  assert (P : (0 < IZR (n - 1))%R) by (apply IZR_lt; lia).
  replace (a' + IZR (Z.of_nat j) * ((b' - a') / IZR (n - 1)))%R with (a' + IZR (Z.of_nat j) / IZR (n - 1) * (b' - a'))%R by (field; lra).
  replace (a + (b - a) / IZR (n - 1) * IZR (Z.of_nat j))%R with (a + IZR (Z.of_nat j) / IZR (n - 1) * (b - a))%R by (field; lra).
  apply near_convex; try assumption. split.
  - apply Rmult_le_pos; [apply IZR_le; lia|apply Rlt_le, Rinv_0_lt_compat, P].
  - apply Rmult_le_reg_r with (IZR (n - 1)); [exact P|]. unfold Rdiv. rewrite Rmult_assoc, Rinv_l, Rmult_1_r, Rmult_1_l by lra. apply IZR_le. lia.
Qed.
Lemma abs_near x y x' y' : near x' x -> near y' y -> (Rabs (Rabs (Rabs x' - Rabs y') - Rabs (Rabs x - Rabs y)) <= / 10 ^ 10)%R.
Proof.
  unfold near. intros A B. eapply Rle_trans; [apply Rabs_triang_inv2|].
  replace (Rabs x' - Rabs y' - (Rabs x - Rabs y))%R with ((Rabs x' - Rabs x) + - (Rabs y' - Rabs y))%R by ring.
  eapply Rle_trans; [apply Rabs_triang|]. rewrite Rabs_Ropp. pose proof (Rabs_triang_inv2 x' x). pose proof (Rabs_triang_inv2 y' y). lra.
Qed.
Lemma last_nth {A} (l : list A) d k : l <> [] -> k = (length l - 1)%nat -> nth_error l k = Some (last l d).
Proof.
  intros N ->. induction l as [|x l IH]; [contradiction|]. destruct l as [|y l]; [reflexivity|]. cbn [length]. replace (S (S (length l)) - 1)%nat with (S (length (y :: l) - 1)) by (cbn; lia).
  cbn [nth_error]. rewrite IH by discriminate. reflexivity.
Qed.
Lemma range_nth lo hi k v : nth_error (range lo hi) k = Some v -> v = lo + Z.of_nat k.
Proof. unfold range. rewrite nth_error_map. destruct (nth_error (seq 0 _) k) as [q|] eqn:E; [|discriminate]. apply nth_error_seq' in E as [-> _]. cbn. intros [= <-]. lia. Qed.

Lemma show_run whole F (s : settings R) n : proper s -> s_nx s < 2147483648 -> s_ny s < 2147483648 -> 0 <= n < 2147483647 ->
  (IZR n <= s_Tfinal s / s_dt s < IZR n + 1)%R -> 0 < print_every s n < 2147483648 -> 2 * (n mod print_every s n) < print_every s n ->
  exists d fs sh, run_files fixed10 whole F s = Ok (d, fs) /\ rf_show d (fs FPhi) = Some sh /\ shown_well whole F s n sh.
Proof.
  intros P M1 M2 Hn Hq He L. destruct (files_load_all whole F s n P M1 M2 Hn Hq He L) as (d & fs & R1 & H).
  destruct (run_files_ok whole F s n P) as (fs' & R2 & _); [lia|exact Hq|lia|]. rewrite R1 in R2. injection R2 as -> <-.
  specialize (H FPhi). destruct H as (bs & Lo & Lb & T). pose proof P as (N1 & N2 & _).
  assert (Q : 0 <= n / print_every s n) by (apply Z.div_pos; lia).
  assert (NB : bs <> []) by (intros ->; cbn [length Z.of_nat] in Lb; lia). destruct bs as [|first rest] eqn:Eb; [contradiction|]. rewrite <- Eb in Lb, T, NB.
  eexists _, fs, _. split; [exact R1|]. split.
  { unfold rf_show. rewrite details_read, details_reals by lia. rewrite Lo. destruct (Z.ltb_spec (s_nx s) 2); [lia|]. destruct (Z.ltb_spec (s_ny s) 2); [lia|]. cbn [orb]. reflexivity. }
  rewrite <- Eb. unfold shown_well. cbv zeta. cbn [sh_x sh_y sh_times sh_e sh_edx].
  assert (T0 : table (s_nx s) (s_ny s) (fun i j v => near v (file_value whole F s FPhi 0 i j)) first) by (apply (T 0%nat); subst bs; reflexivity).
  assert (T1 : table (s_nx s) (s_ny s) (fun i j v => near v (file_value whole F s FPhi (Z.to_nat (n / print_every s n) * Z.to_nat (print_every s n)) i j)) (last bs first)).
  { apply T. apply last_nth; [exact NB|lia]. }
  split; [apply linspace_near; [lia|apply back_near|apply back_near]|]. split; [apply linspace_near; [lia|apply back_near|apply back_near]|].
  split; [|split; [|split]].
  - split.
    + rewrite map_length, range_len by (rewrite rf_count_ok by lia; destruct (_ <? _); lia). rewrite rf_count_ok by lia. destruct (Z.ltb_spec (2 * (n mod print_every s n)) (print_every s n)); lia.
    + intros b t E. rewrite nth_error_map in E. destruct (nth_error (range 1 _) b) as [v|] eqn:E2; [|discriminate]. apply range_nth in E2 as ->. cbn [option_map] in E.
      assert (E' : t = (IZR (1 + Z.of_nat b - 1) * back (s_dt s) * IZR (print_every s n))%R) by congruence. rewrite E'. clear E E'.
      replace (1 + Z.of_nat b - 1) with (Z.of_nat b) by lia. rewrite <- INR_IZR_INZ.
      replace (INR b * back (s_dt s) * IZR (print_every s n) - INR b * IZR (print_every s n) * s_dt s)%R with (INR b * IZR (print_every s n) * (back (s_dt s) - s_dt s))%R by ring.
      assert (K : (0 <= INR b * IZR (print_every s n))%R) by (apply Rmult_le_pos; [apply pos_INR|apply IZR_le; lia]).
      rewrite Rabs_mult, (Rabs_pos_eq _ K). apply Rmult_le_compat_l; [exact K|apply back_near].
  - pose proof (back_near (s_xlim1 s)) as A. pose proof (back_near (s_xlim2 s)) as B. unfold near in A, B. unfold s_dx. cbn.
    unfold u32. rewrite Z.mod_small by lia. assert (I : (2 <= IZR (s_nx s - 1))%R) by (apply (IZR_le 2); lia).
    set (a := back (s_xlim1 s)) in *. set (b := back (s_xlim2 s)) in *. set (k := IZR (s_nx s - 1)) in *. clearbody k a b.
    replace (a + 1 * ((b - a) / k) - (a + 0 * ((b - a) / k)) - (s_xlim2 s - s_xlim1 s) / k)%R with (((b - s_xlim2 s) - (a - s_xlim1 s)) * / k)%R by (field; lra).
    rewrite Rabs_mult, (Rabs_pos_eq (/ k)) by (apply Rlt_le, Rinv_0_lt_compat; lra).
    assert (Rabs (b - s_xlim2 s - (a - s_xlim1 s)) <= / 10 ^ 10)%R.
    { unfold Rminus at 1. eapply Rle_trans; [apply Rabs_triang|]. rewrite Rabs_Ropp. lra. }
    assert (/ k <= 1)%R by (rewrite <- Rinv_1; apply Rinv_le_contravar; lra). assert (0 < / k)%R by (apply Rinv_0_lt_compat; lra).
    pose proof (Rabs_pos (b - s_xlim2 s - (a - s_xlim1 s))). set (z := Rabs (b - s_xlim2 s - (a - s_xlim1 s))) in *. clearbody z.
    apply Rle_trans with (z * 1)%R; [apply Rmult_le_compat_l; lra|lra].
  - intros i j I J. destruct (table_entry _ _ _ _ i j T1 I J) as (r1 & x1 & A1 & B1 & C1). destruct (table_entry _ _ _ _ i j T0 I J) as (r0 & x0 & A0 & B0 & C0).
    pose proof (table_ge _ _ _ _ _ _ _ _ _ _ _ _ T1 T0 A1 A0 B1 B0) as G. cbn beta in C1, C0. pose proof (abs_near _ _ _ _ C1 C0) as K. apply both in K. lra.
  - destruct (table_at (s_nx s) (s_ny s) _ _ (last bs first) first ltac:(lia) ltac:(lia) T1 T0) as (i & j & x & y & I & J & C1 & C0 & E). exists i, j. split; [exact I|]. split; [exact J|].
    rewrite <- E. apply abs_near; assumption.
Qed.
(** the error is never more than the true deviation *)
Lemma e_lower whole F s n sh D : shown_well whole F s n sh ->
  let final := file_value whole F s FPhi (Z.to_nat (n / print_every s n) * Z.to_nat (print_every s n)) in let start := file_value whole F s FPhi 0 in
  (forall i j, 0 <= i < s_ny s -> 0 <= j < s_nx s -> (Rabs (final i j - start i j) <= D)%R) -> (sh_e sh <= D + / 10 ^ 10)%R.
Proof.
  intros (_ & _ & _ & _ & _ & i & j & I & J & K) final start H. specialize (H i j I J). cbv zeta in K. fold final in K. fold start in K. apply both in K. pose proof (Rabs_triang_inv2 (final i j) (start i j)). lra.
Qed.
(** but it does not see signs *)
Lemma row_opp a : row_max (map Ropp a) a = 0%R.
Proof. unfold row_max. induction a as [|x a IH]; [reflexivity|]. cbn. rewrite IH, Rabs_Ropp. replace (Rabs x - Rabs x)%R with 0%R by ring. rewrite Rabs_R0. apply Rmax_left. lra. Qed.
Lemma table_opp a : table_max (map (map Ropp) a) a = 0%R.
Proof. unfold table_max. induction a as [|x a IH]; [reflexivity|]. cbn [map combine fold_right fst snd]. rewrite IH, row_opp. apply Rmax_left. lra. Qed.
Lemma e_blind d phi a sh : rf_load d phi = Some [a; map (map Ropp) a] -> rf_show d phi = Some sh -> sh_e sh = 0%R.
Proof.
  intros L S. unfold rf_show in S. rewrite L in S. destruct (rf_details d) as [[[[nx ny] n] p]|]; [|discriminate]. destruct (rf_reals d) as [[[[[x1 x2] y1] y2] dt]|]; [|discriminate].
  destruct (_ || _)%bool; [discriminate|]. apply (f_equal (option_map sh_e)) in S. cbn [option_map sh_e last] in S. rewrite table_opp in S. congruence.
Qed.
(** texts *)
Definition tx := list_ascii_of_string.
Definition row (s : string) : text := tx s ++ [nl].
