(** Gradient schemes run on arrays of doubles: rounding error and total error. *)
From Coq Require Import ZArith List Bool Lia Reals Lra.
From Flocq Require Import Core BinarySingleNaN.
From Verif Require Import Base Num NumB64 ModelVec ModelGrid ModelArray ModelGradient SpecGrid SpecInterp SpecB64 SpecRound SpecGradient SpecRoundGrad
  ProofsBase ProofsGrid ProofsArray ProofsGridProps ProofsGradient ProofsB64 ProofsB64Ops ProofsB64Grid ProofsB64Interp ProofsRound ProofsTaylor ProofsRoundGrad ProofsInterpProps ProofsInterpApi ProofsGradientProps ProofsB64Cases ProofsRoundCases.
Import ListNotations.
Open Scope R_scope.

Section Run.
Variables (ov : ovmode) (dim : nat) (n : vec3 Z) (pad : Z) (bmin bmax : vec3 b64) (g : grid b64) (rho M : R).
Hypothesis Hb : built ov dim n pad bmin bmax g.
Hypothesis Hf : fine_box dim rho n bmin bmax.
Hypothesis HM : moderate M.
Let h (a : axis) : R := spacing64 (vget bmin a) (vget bmax a) (vget n a).

Lemma run_dx a : vget (g_dx g) a = dx64 (vget bmin a) (vget bmax a) (vget n a).
Proof. rewrite (bf_dx _ _ _ _ _ _ _ (built_ok _ _ _ _ _ _ _ Hb)). destruct a; reflexivity. Qed.
Lemma run_n a : used dim a = true -> (1 <= vget n a < 2 ^ 31)%Z.
Proof. apply (n64 _ _ _ _ _ _ _ Hb). Qed.
Lemma near_cell c a s : interior_cell n c -> used dim a = true -> (- pad <= s <= pad)%Z -> padded_cell dim n pad (cshift c a s).
Proof.
  intros Hi Hu Hs. pose proof (built_ok _ _ _ _ _ _ _ Hb) as F. pose proof (bf_ok _ _ _ _ _ _ _ F) as Hg. destruct c as [[i j] k].
  apply (built_gcell _ _ _ _ _ _ _ _ Hb). apply (ashift_ok ov g (array_ctor g tt) i j k a s); auto.
  - rewrite (bf_n _ _ _ _ _ _ _ F). exact Hi.
  - rewrite (bf_dim _ _ _ _ _ _ _ F). exact Hu.
  - rewrite (bf_pad _ _ _ _ _ _ _ F). exact Hs.
Qed.
Lemma here_cell c : interior_cell n c -> padded_cell dim n pad c.
Proof. intros Hi. eapply interior_padded; [apply Hb|exact Hi]. Qed.

Section Scalar.
Variables (al : array b64) (gr : array (vec3 b64)) (F : cell -> R).
Hypothesis Ha : array_on g al.
Hypothesis Hr : array_on g gr.
Hypothesis HF : holds64 ov dim n pad g al F M.
Lemma pk_real c : padded_cell dim n pad c -> is_real (pk (nofZ 0) g al c) (F c) /\ Rabs (F c) <= M.
Proof.
  intros Hc. destruct c as [[i j] k]. destruct (HF i j k Hc) as (z & E & H). pose proof (built_ok _ _ _ _ _ _ _ Hb) as B. pose proof (bf_ok _ _ _ _ _ _ _ B) as Hg.
  rewrite (aget_peek_c ov) in E; [|exact Hg|apply (built_gcell _ _ _ _ _ _ _ _ Hb); exact Hc]. unfold pk. rewrite E. exact H.
Qed.
Lemma near_finish gr' val D e : shaped g gr' ->
  (forall c, interior_cell (g_n g) c -> exists x y, peek g gr c = Ok x /\ peek g gr' c = Ok y /\
       forall a, vget y a = if used (g_dim g) a then val c a else vget x a) ->
  (forall c, gcell g c -> ~ interior_cell (g_n g) c -> peek g gr' c = peek g gr c) ->
  (forall c a, interior_cell n c -> used dim a = true -> is_finite (val c a) = true /\ Rabs (real (val c a) - D c a) <= e a) ->
  grad_near ov dim n pad g gr gr' D e.
Proof.
  intros S' Hi Ho HD. pose proof (built_ok _ _ _ _ _ _ _ Hb) as B. pose proof (bf_ok _ _ _ _ _ _ _ B) as Hg.
  rewrite (bf_n _ _ _ _ _ _ _ B) in Hi, Ho. rewrite (bf_dim _ _ _ _ _ _ _ B) in Hi.
  split; [apply (array_on_shaped _ _ _ _ _ _ _ _ Hb); exact S'|]. split.
  - intros i j k Hc. destruct (Hi _ Hc) as (x & y & Ex & Ey & V).
    assert (Hgc : gcell g (i, j, k)) by (apply (built_gcell _ _ _ _ _ _ _ _ Hb); apply here_cell; exact Hc).
    exists x, y. rewrite !(aget_peek_c ov) by auto. split; [exact Ex|]. split; [exact Ey|].
    intros a. specialize (V a). destruct (used dim a) eqn:Hu; rewrite V; [apply HD; auto|reflexivity].
  - intros i j k Hp Hn. apply (built_gcell _ _ _ _ _ _ _ _ Hb) in Hp. rewrite !(aget_peek_c ov) by auto. apply Ho; auto.
Qed.

Lemma soc_run : (1 <= pad)%Z -> exists gr', soc_scalar ov g al g gr = Ok gr' /\
  grad_near ov dim n pad g gr gr' (fun c a => central F c a (h a)) (fun a => bpow radix2 (-49) * (M / h a)).
Proof.
  intros Hp. pose proof (built_ok _ _ _ _ _ _ _ Hb) as B. pose proof (bf_ok _ _ _ _ _ _ _ B) as Hg.
  destruct (soc_scalar_effect ov g Hg al gr) as (gr' & E & S' & _ & Hi & Ho);
    [rewrite (bf_pad _ _ _ _ _ _ _ B); lia|apply (array_on_shaped _ _ _ _ _ _ _ _ Hb); auto|apply (array_on_shaped _ _ _ _ _ _ _ _ Hb); auto|].
  exists gr'. split; [exact E|]. refine (near_finish gr' (fun c a => _) _ _ S' Hi Ho _).
  intros c a Hc Hu. cbv beta. rewrite run_dx. unfold central, h.
  destruct (pk_real _ (near_cell c a 1 Hc Hu ltac:(lia))) as (A1 & B1). destruct (pk_real _ (near_cell c a (-1) Hc Hu ltac:(lia))) as (A2 & B2).
  apply (soc_round _ _ _ rho (run_n a Hu) (proj2 Hf a Hu) (proj1 Hf) M HM); auto.
Qed.
Lemma third_run : (2 <= pad)%Z -> exists gr', third_scalar ov g al g gr = Ok gr' /\
  grad_near ov dim n pad g gr gr' (fun c a => upwind3 F c a (h a)) (fun a => bpow radix2 (-48) * (M / h a)).
Proof.
  intros Hp. pose proof (built_ok _ _ _ _ _ _ _ Hb) as B. pose proof (bf_ok _ _ _ _ _ _ _ B) as Hg.
  destruct (third_scalar_effect ov g Hg al gr) as (gr' & E & S' & _ & Hi & Ho);
    [rewrite (bf_pad _ _ _ _ _ _ _ B); lia|apply (array_on_shaped _ _ _ _ _ _ _ _ Hb); auto|apply (array_on_shaped _ _ _ _ _ _ _ _ Hb); auto|].
  exists gr'. split; [exact E|]. refine (near_finish gr' (fun c a => _) _ _ S' Hi Ho _).
  intros c a Hc Hu. cbv beta. rewrite run_dx. unfold upwind3, h.
  destruct (pk_real _ (near_cell c a 1 Hc Hu ltac:(lia))) as (A1 & B1). destruct (pk_real _ (near_cell c a (-1) Hc Hu ltac:(lia))) as (A2 & B2).
  destruct (pk_real _ (near_cell c a (-2) Hc Hu ltac:(lia))) as (A3 & B3). destruct (pk_real _ (here_cell c Hc)) as (A4 & B4).
  apply (third_round _ _ _ rho (run_n a Hu) (proj2 Hf a Hu) (proj1 Hf) M HM); auto.
Qed.

(** noisy samples of a smooth function *)
Variables (f : vec3 R -> R) (D : vec3 R -> axis -> R) (K delta : R).
Let P := centre_pos dim n (reals bmin) (reals bmax).
Hypothesis Hs : forall c, padded_cell dim n pad c -> Rabs (F c - f (P c)) <= delta.
Lemma rget v a : vget (reals v) a = real (vget v a).
Proof. destruct a; reflexivity. Qed.
Lemma shift_pos c a s : used dim a = true -> P (cshift c a s) = along (P c) a (IZR s * h a).
Proof.
  intros Hu. apply vec_ext. intros b.
  assert (Eb : vget (along (P c) a (IZR s * h a)) b = if axis_eqb a b then vget (P c) a + IZR s * h a else vget (P c) b)
    by (unfold along; destruct a, b; reflexivity).
  rewrite Eb. unfold P. rewrite !centre_coord.
  assert (Ecc : ccoord (cshift c a s) b = if axis_eqb a b then (ccoord c a + s)%Z else ccoord c b) by (destruct c as [[i j] k]; destruct a, b; reflexivity).
  rewrite Ecc. destruct (axis_eqb a b) eqn:Eab; [|reflexivity].
  assert (a = b) by (destruct a, b; try reflexivity; discriminate). subst b. rewrite Hu. unfold centre, h, spacing64. rewrite !rget, plus_IZR. ring.
Qed.
Lemma h_pos1 a : used dim a = true -> 0 < h a.
Proof. intros Hu. destruct (proj2 Hf a Hu) as (_ & _ & _ & [H1 _] & _). fold (h a) in H1. pose proof (bpow_gt_0 radix2 (-200)). lra. Qed.
Lemma near_weak gr' D1 D2 e1 e2 : grad_near ov dim n pad g gr gr' D1 e1 ->
  (forall c a, interior_cell n c -> used dim a = true -> Rabs (D1 c a - D2 c a) + e1 a <= e2 a) -> grad_near ov dim n pad g gr gr' D2 e2.
Proof.
  intros (H1 & H2 & H3) H. split; [exact H1|]. split; [|exact H3]. intros i j k Hc. destruct (H2 i j k Hc) as (x & y & Ex & Ey & V). exists x, y.
  split; [exact Ex|]. split; [exact Ey|]. intros a. specialize (V a). destruct (used dim a) eqn:Hu; [|exact V]. destruct V as (V1 & V2). split; [exact V1|].
  specialize (H (i, j, k) a Hc Hu). replace (real (vget y a) - D2 (i, j, k) a) with ((real (vget y a) - D1 (i, j, k) a) + (D1 (i, j, k) a - D2 (i, j, k) a)) by ring.
  eapply Rle_trans; [apply Rabs_triang|]. lra.
Qed.

Lemma soc_total : (1 <= pad)%Z ->
  (forall c a, interior_cell n c -> used dim a = true -> exists d1 d2 d3, derivs (- h a) (h a) (fun t => f (along (P c) a t)) [d1; d2; d3] /\
     d1 0 = D (P c) a /\ forall t, - h a <= t <= h a -> Rabs (d3 t) <= K) ->
  exists gr', soc_scalar ov g al g gr = Ok gr' /\
  grad_near ov dim n pad g gr gr' (fun c a => D (P c) a) (fun a => K / 6 * h a ^ 2 + delta / h a + bpow radix2 (-49) * (M / h a)).
Proof.
  intros Hp HD. destruct (soc_run Hp) as (gr' & E & H). exists gr'. split; [exact E|]. refine (near_weak _ _ _ _ _ H _).
  intros c a Hc Hu. cbv beta. apply Rplus_le_compat_r. pose proof (h_pos1 a Hu) as hp. destruct (HD c a Hc Hu) as (d1 & d2 & d3 & HDD & E1 & HK).
  pose proof (soc_order (h a) K _ d1 d2 d3 hp HDD HK) as T. rewrite E1 in T.
  pose proof (Hs _ (near_cell c a 1 Hc Hu ltac:(lia))) as N1. pose proof (Hs _ (near_cell c a (-1) Hc Hu ltac:(lia))) as N2.
  rewrite !shift_pos in N1, N2 by auto. replace (IZR 1 * h a) with (h a) in N1 by ring. replace (IZR (-1) * h a) with (- h a) in N2 by ring. unfold central.
  set (x := F (cshift c a 1)) in *. set (y := F (cshift c a (-1))) in *. set (x' := f (along (P c) a (h a))) in *. set (y' := f (along (P c) a (- h a))) in *.
  replace ((x - y) / (2 * h a) - D (P c) a) with (((x' - y') / (2 * h a) - D (P c) a) + ((x - x') - (y - y')) / (2 * h a)) by (field; lra).
  eapply Rle_trans; [apply Rabs_triang|]. apply Rplus_le_compat; [exact T|].
  unfold Rdiv. rewrite Rabs_mult, (Rabs_pos_eq (/ (2 * h a))) by (left; apply Rinv_0_lt_compat; lra).
  replace (delta * / h a) with (2 * delta * / (2 * h a)) by (field; lra). apply Rmult_le_compat_r; [left; apply Rinv_0_lt_compat; lra|].
  unfold Rminus at 1. eapply Rle_trans; [apply Rabs_triang|]. rewrite Rabs_Ropp. lra.
Qed.
Lemma third_total : (2 <= pad)%Z ->
  (forall c a, interior_cell n c -> used dim a = true -> exists d1 d2 d3 d4, derivs (- (2 * h a)) (h a) (fun t => f (along (P c) a t)) [d1; d2; d3; d4] /\
     d1 0 = D (P c) a /\ forall t, - (2 * h a) <= t <= h a -> Rabs (d4 t) <= K) ->
  exists gr', third_scalar ov g al g gr = Ok gr' /\
  grad_near ov dim n pad g gr gr' (fun c a => D (P c) a) (fun a => K / 6 * h a ^ 3 + 2 * delta / h a + bpow radix2 (-48) * (M / h a)).
Proof.
  intros Hp HD. destruct (third_run Hp) as (gr' & E & H). exists gr'. split; [exact E|]. refine (near_weak _ _ _ _ _ H _).
  intros c a Hc Hu. cbv beta. apply Rplus_le_compat_r. pose proof (h_pos1 a Hu) as hp. destruct (HD c a Hc Hu) as (d1 & d2 & d3 & d4 & HDD & E1 & HK).
  pose proof (third_order (h a) K _ d1 d2 d3 d4 hp HDD HK) as T. rewrite E1 in T.
  pose proof (Hs _ (near_cell c a 1 Hc Hu ltac:(lia))) as N1. pose proof (Hs _ (near_cell c a (-1) Hc Hu ltac:(lia))) as N2.
  pose proof (Hs _ (near_cell c a (-2) Hc Hu ltac:(lia))) as N3. pose proof (Hs _ (here_cell c Hc)) as N4.
  rewrite !shift_pos in N1, N2, N3 by auto. replace (IZR 1 * h a) with (h a) in N1 by ring. replace (IZR (-1) * h a) with (- h a) in N2 by ring.
  assert (E0 : along (P c) a 0 = P c) by (apply vec_ext; intros b; unfold along; rewrite Rplus_0_r; destruct a, b; reflexivity).
  cbv beta in T. rewrite E0 in T. unfold upwind3. change (-2 * h a) with (IZR (-2) * h a) in T.
  set (x := F (cshift c a 1)) in *. set (y := F (cshift c a (-1))) in *. set (z := F (cshift c a (-2))) in *. set (w := F c) in *.
  set (x' := f (along (P c) a (h a))) in *. set (y' := f (along (P c) a (- h a))) in *. set (z' := f (along (P c) a (IZR (-2) * h a))) in *. set (w' := f (P c)) in *.
  replace ((2 * x + 3 * w - 6 * y + z) / (6 * h a) - D (P c) a) with (((2 * x' + 3 * w' - 6 * y' + z') / (6 * h a) - D (P c) a) + (2 * (x - x') + 3 * (w - w') - 6 * (y - y') + (z - z')) / (6 * h a)) by (field; lra).
  eapply Rle_trans; [apply Rabs_triang|]. apply Rplus_le_compat; [exact T|].
  unfold Rdiv. rewrite Rabs_mult, (Rabs_pos_eq (/ (6 * h a))) by (left; apply Rinv_0_lt_compat; lra).
  replace (2 * delta * / h a) with (12 * delta * / (6 * h a)) by (field; lra). apply Rmult_le_compat_r; [left; apply Rinv_0_lt_compat; lra|].
  clear - N1 N2 N3 N4. generalize dependent (x - x'). generalize dependent (y - y'). generalize dependent (z - z'). generalize dependent (w - w'). intros.
  unfold Rabs in *. repeat destruct Rcase_abs; lra.
Qed.
End Scalar.

Section Vector.
Variables (al : array (vec3 b64)) (gr : array (mat3 b64)) (F : axis -> cell -> R).
Hypothesis Ha : array_on g al.
Hypothesis Hr : array_on g gr.
Hypothesis HF : vholds64 ov dim n pad g al F M.
Lemma vpk_real c r : padded_cell dim n pad c -> used dim r = true -> is_real (vget (pk vzero g al c) r) (F r c) /\ Rabs (F r c) <= M.
Proof.
  intros Hc Hu. destruct c as [[i j] k]. destruct (HF i j k Hc) as (z & E & H). pose proof (built_ok _ _ _ _ _ _ _ Hb) as B. pose proof (bf_ok _ _ _ _ _ _ _ B) as Hg.
  rewrite (aget_peek_c ov) in E; [|exact Hg|apply (built_gcell _ _ _ _ _ _ _ _ Hb); exact Hc]. unfold pk. rewrite E. apply H. exact Hu.
Qed.
Lemma mat_finish gr' val D e : shaped g gr' ->
  (forall c, interior_cell (g_n g) c -> exists x y, peek g gr c = Ok x /\ peek g gr' c = Ok y /\
       forall r d, mget y r d = if used (g_dim g) r && used (g_dim g) d then val c r d else mget x r d) ->
  (forall c, gcell g c -> ~ interior_cell (g_n g) c -> peek g gr' c = peek g gr c) ->
  (forall c r d, interior_cell n c -> used dim r = true -> used dim d = true -> is_finite (val c r d) = true /\ Rabs (real (val c r d) - D c r d) <= e d) ->
  mat_near ov dim n pad g gr gr' D e.
Proof.
  intros S' Hi Ho HD. pose proof (built_ok _ _ _ _ _ _ _ Hb) as B. pose proof (bf_ok _ _ _ _ _ _ _ B) as Hg.
  rewrite (bf_n _ _ _ _ _ _ _ B) in Hi, Ho. rewrite (bf_dim _ _ _ _ _ _ _ B) in Hi.
  split; [apply (array_on_shaped _ _ _ _ _ _ _ _ Hb); exact S'|]. split.
  - intros i j k Hc. destruct (Hi _ Hc) as (x & y & Ex & Ey & V).
    assert (Hgc : gcell g (i, j, k)) by (apply (built_gcell _ _ _ _ _ _ _ _ Hb); apply here_cell; exact Hc).
    exists x, y. rewrite !(aget_peek_c ov) by auto. split; [exact Ex|]. split; [exact Ey|].
    intros r d. specialize (V r d). destruct (used dim r && used dim d) eqn:Hu; rewrite V; [|reflexivity]. apply andb_prop in Hu. apply HD; [exact Hc| |]; apply Hu.
  - intros i j k Hp Hn. apply (built_gcell _ _ _ _ _ _ _ _ Hb) in Hp. rewrite !(aget_peek_c ov) by auto. apply Ho; auto.
Qed.
Lemma soc_vrun : (1 <= pad)%Z -> exists gr', soc_vector ov g al g gr = Ok gr' /\
  mat_near ov dim n pad g gr gr' (fun c r d => central (F r) c r (h d)) (fun d => bpow radix2 (-49) * (M / h d)).
Proof.
  intros Hp. pose proof (built_ok _ _ _ _ _ _ _ Hb) as B. pose proof (bf_ok _ _ _ _ _ _ _ B) as Hg.
  destruct (soc_vector_effect ov g Hg al gr) as (gr' & E & S' & _ & Hi & Ho);
    [rewrite (bf_pad _ _ _ _ _ _ _ B); lia|apply (array_on_shaped _ _ _ _ _ _ _ _ Hb); auto|apply (array_on_shaped _ _ _ _ _ _ _ _ Hb); auto|].
  exists gr'. split; [exact E|]. refine (mat_finish gr' (fun c r d => _) _ _ S' Hi Ho _).
  intros c r d Hc Hr' Hd. cbv beta. rewrite run_dx. unfold central, h.
  destruct (vpk_real _ r (near_cell c r 1 Hc Hr' ltac:(lia)) Hr') as (A1 & B1). destruct (vpk_real _ r (near_cell c r (-1) Hc Hr' ltac:(lia)) Hr') as (A2 & B2).
  apply (soc_round _ _ _ rho (run_n d Hd) (proj2 Hf d Hd) (proj1 Hf) M HM); auto.
Qed.
Lemma third_vrun : (2 <= pad)%Z -> exists gr', third_vector ov g al g gr = Ok gr' /\
  mat_near ov dim n pad g gr gr' (fun c r d => upwind3 (F r) c r (h d)) (fun d => bpow radix2 (-48) * (M / h d)).
Proof.
  intros Hp. pose proof (built_ok _ _ _ _ _ _ _ Hb) as B. pose proof (bf_ok _ _ _ _ _ _ _ B) as Hg.
  destruct (third_vector_effect ov g Hg al gr) as (gr' & E & S' & _ & Hi & Ho);
    [rewrite (bf_pad _ _ _ _ _ _ _ B); lia|apply (array_on_shaped _ _ _ _ _ _ _ _ Hb); auto|apply (array_on_shaped _ _ _ _ _ _ _ _ Hb); auto|].
  exists gr'. split; [exact E|]. refine (mat_finish gr' (fun c r d => _) _ _ S' Hi Ho _).
  intros c r d Hc Hr' Hd. cbv beta. rewrite run_dx. unfold upwind3, h.
  destruct (vpk_real _ r (near_cell c r 1 Hc Hr' ltac:(lia)) Hr') as (A1 & B1). destruct (vpk_real _ r (near_cell c r (-1) Hc Hr' ltac:(lia)) Hr') as (A2 & B2).
  destruct (vpk_real _ r (near_cell c r (-2) Hc Hr' ltac:(lia)) Hr') as (A3 & B3). destruct (vpk_real _ r (here_cell c Hc) Hr') as (A4 & B4).
  apply (third_round _ _ _ rho (run_n d Hd) (proj2 Hf d Hd) (proj1 Hf) M HM); auto.
Qed.
End Vector.
End Run.

(** five cells on (-1,1) with two ghost layers; the cell with index i holds the number i *)
Definition idx (c : cell) : R := IZR (fst (fst c)).
Lemma grad64_case : exists (g : grid b64) (al : array b64) (va : array (vec3 b64)),
  built Trap 1 (V3 5 1 1)%Z 2 (ivl (-1)) (ivl 1) g /\ fine_box 1 (5 / 2) (V3 5 1 1)%Z (ivl (-1)) (ivl 1) /\ moderate 8 /\
  array_on g al /\ array_on g va /\ holds64 Trap 1 (V3 5 1 1)%Z 2 g al idx 8 /\ vholds64 Trap 1 (V3 5 1 1)%Z 2 g va (fun _ => idx) 8 /\
  array_on g (array_ctor g (vzero : vec3 b64)) /\ array_on g (array_ctor g (mzero : mat3 b64)).
Proof.
  destruct (built_exists (T := b64) Trap 1 (V3 5 1 1)%Z 2 (ivl (-1)) (ivl 1) (proj1 good_1dp2) (proj2 good_1dp2)) as (g & Hb).
  pose proof (built_ok _ _ _ _ _ _ _ Hb) as F. pose proof (bf_ok _ _ _ _ _ _ _ F) as Hg.
  destruct (array_of Trap g (fun c => b64_make (fst (fst c)) 0) Hg) as (al & S1 & P1 & _).
  destruct (array_of Trap g (fun c => V3 (b64_make (fst (fst c)) 0) (b64_make 0 0) (b64_make 0 0)) Hg) as (va & S2 & P2 & _).
  assert (I : forall i j k, padded_cell 1 (V3 5 1 1)%Z 2 (i, j, k) -> is_real (b64_make i 0) (idx (i, j, k)) /\ Rabs (idx (i, j, k)) <= 8).
  { intros i j k Hc. specialize (Hc AX). cbn in Hc. destruct (real_int i) as (R1 & R2); [lia|]. split; [split; [exact R1|exact R2]|].
    unfold idx. cbn [fst]. rewrite <- abs_IZR. apply IZR_le. lia. }
  destruct (real_int 1) as (F1 & E1); [lia|]. destruct (real_int (-1)) as (F2 & E2); [lia|].
  exists g, al, va. split; [exact Hb|]. split.
  { split; [change (bpow radix2 30) with 1073741824; lra|]. intros [| |] Hu; try discriminate. cbn [vget vx].
    split; [exact F2|]. split; [exact F1|]. split; [unfold ivl; cbn [vx]; rewrite E1, E2; lra|]. rewrite unit_spacing. split; [apply mod_half; lra|].
    unfold reach, ivl. cbn [vx]. rewrite E1, E2. unfold Rmax. destruct Rle_dec; unfold Rabs; destruct Rcase_abs; lra. }
  split. { split; [apply Rle_trans with (bpow radix2 0); [apply bpow_le; lia|change (bpow radix2 0) with 1; lra]|change 8 with (bpow radix2 3); apply bpow_le; lia]. }
  split; [apply (array_on_shaped _ _ _ _ _ _ _ _ Hb); exact S1|]. split; [apply (array_on_shaped _ _ _ _ _ _ _ _ Hb); exact S2|].
  split; [|split; [|split; apply (fresh_array _ _ _ _ _ _ _ _ Hb)]].
  - intros i j k Hc. assert (Hgc : gcell g (i, j, k)) by (apply (built_gcell _ _ _ _ _ _ _ _ Hb); exact Hc).
    rewrite (aget_peek_c Trap) by auto. rewrite P1 by auto. eexists. split; [reflexivity|]. apply (I i j k Hc).
  - intros i j k Hc. assert (Hgc : gcell g (i, j, k)) by (apply (built_gcell _ _ _ _ _ _ _ _ Hb); exact Hc).
    rewrite (aget_peek_c Trap) by auto. rewrite P2 by auto. eexists. split; [reflexivity|]. intros [| |] Hu; try discriminate. apply (I i j k Hc).
Qed.
(** these are samples of x -> 5/2 x + 17/8 up to 1/8 *)
Definition ramp (p : vec3 R) : R := 5 / 2 * vx p + 17 / 8.
Lemma ramp_near c : Rabs (idx c - ramp (centre_pos 1 (V3 5 1 1)%Z (reals (ivl (-1))) (reals (ivl 1)) c)) <= / 8.
Proof.
  destruct c as [[i j] k]. destruct (real_int 1) as (F1 & E1); [lia|]. destruct (real_int (-1)) as (F2 & E2); [lia|].
  unfold ramp, idx. cbn [fst]. change (vx (centre_pos 1 (V3 5 1 1)%Z (reals (ivl (-1))) (reals (ivl 1)) (i, j, k))) with (centre (real (b64_make (-1) 0)) (real (b64_make 1 0)) 5 i).
  unfold centre, spacing. rewrite E1, E2. match goal with |- Rabs ?x <= _ => replace x with (- / 8) by field end. rewrite Rabs_Ropp, Rabs_pos_eq; lra.
Qed.
Lemma ramp_derivs p lo hi : exists d1 d2 d3 d4, derivs lo hi (fun t => ramp (along p AX t)) [d1; d2; d3; d4] /\ d1 0 = 5 / 2 /\ forall t, Rabs (d3 t) <= 0 /\ Rabs (d4 t) <= 0.
Proof.
  exists (fun _ => 5 / 2), (fun _ => 0), (fun _ => 0), (fun _ => 0). split; [|split; [reflexivity|intros; rewrite Rabs_R0; lra]].
  split; [|repeat split; intros; apply derivable_pt_lim_const].
  intros t _. unfold ramp, along. cbn [vset vget vx].
  apply (d_eq _ _ (5 / 2 * (0 + 1) + 0)); [|ring]. apply derivable_pt_lim_plus; [|apply derivable_pt_lim_const].
  apply (derivable_pt_lim_scal (fun t => vx p + t)). apply derivable_pt_lim_plus; [apply derivable_pt_lim_const|apply derivable_pt_lim_id].
Qed.
