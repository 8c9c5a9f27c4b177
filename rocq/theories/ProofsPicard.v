(** Trajectories of a bounded Lipschitz velocity: they exist for all times and are determined by one point. *)
From Coq Require Import Reals Lra Lia.
From Coquelicot Require Import Coquelicot.
Open Scope R_scope.

Lemma lip_cont (f : R -> R) C : (forall a b, Rabs (f a - f b) <= C * Rabs (a - b)) -> forall x, continuous f x.
Proof.
  intros H x. assert (HC : 0 <= C).
  { pose proof (H 1 0) as H1. replace (1 - 0) with 1 in H1 by ring. rewrite Rabs_R1 in H1. pose proof (Rabs_pos (f 1 - f 0)). lra. }
  apply filterlim_locally. intros eps. assert (Hd : 0 < eps / (C + 1)) by (apply Rdiv_lt_0_compat; [apply cond_pos|lra]).
  exists (mkposreal _ Hd). intros y Hy. change (Rabs (y - x) < eps / (C + 1)) in Hy. change (Rabs (f y - f x) < eps).
  eapply Rle_lt_trans; [apply H|]. apply Rle_lt_trans with ((C + 1) * Rabs (y - x)); [apply Rmult_le_compat_r; [apply Rabs_pos|lra]|].
  apply (Rmult_lt_compat_l (C + 1)) in Hy; [|lra]. replace ((C + 1) * (eps / (C + 1))) with (pos eps) in Hy by (field; lra). exact Hy.
Qed.
Lemma cont_int (f : R -> R) a b : (forall x, continuous f x) -> ex_RInt f a b.
Proof. intros H. apply (ex_RInt_continuous f a b). intros z _. apply H. Qed.
Lemma int_derive (f : R -> R) a t : (forall x, continuous f x) -> is_derive (fun t => RInt f a t) t (f t).
Proof.
  intros H. apply (is_derive_RInt f (fun t => RInt f a t) a t); [|apply H].
  exists (mkposreal 1 Rlt_0_1). intros y _. apply (RInt_correct f a y), cont_int, H.
Qed.
Lemma rising (h h' : R -> R) a b : a <= b -> (forall s, a <= s <= b -> is_derive h s (h' s)) -> (forall s, a <= s <= b -> 0 <= h' s) -> h a <= h b.
Proof.
  intros Hab D P. destruct (Req_dec a b) as [->|N]; [lra|].
  destruct (MVT_cor2 h h' a b ltac:(lra)) as (c & E & Hc); [intros c Hc; apply is_derive_Reals, D; lra|].
  assert (0 <= h' c * (b - a)) by (apply Rmult_le_pos; [apply P; lra|lra]). lra.
Qed.
Lemma exp_up c K t0 s : 0 < K -> is_derive (fun s => c / K * exp (K * (s - t0))) s (c * exp (K * (s - t0))).
Proof. intros HK. auto_derive; [auto|]. unfold Rminus. field. lra. Qed.
Lemma exp_down c K t0 s : 0 < K -> is_derive (fun s => c / K * exp (K * (t0 - s))) s (- (c * exp (K * (t0 - s)))).
Proof. intros HK. auto_derive; [auto|]. unfold Rminus. field. lra. Qed.
(** the integral of a function that grows at most exponentially *)
Lemma int_exp (g : R -> R) c K t0 t : 0 <= c -> 0 < K -> (forall x, continuous g x) -> (forall s, Rabs (g s) <= c * exp (K * Rabs (s - t0))) ->
  Rabs (RInt g t0 t) <= c / K * exp (K * Rabs (t - t0)).
Proof.
  intros Hc HK Cg Hg. assert (HcK : 0 <= c / K) by (apply Rmult_le_pos; [exact Hc|left; apply Rinv_0_lt_compat; exact HK]).
  assert (E0 : RInt g t0 t0 = 0) by apply (RInt_point t0 g).
  assert (A : forall sg, Rabs sg = 1 -> sg * RInt g t0 t <= c / K * exp (K * Rabs (t - t0))).
  { intros sg Hsg. assert (Hgs : forall s, sg * g s <= c * exp (K * Rabs (s - t0))).
    { intros s. eapply Rle_trans; [apply Rle_abs|]. rewrite Rabs_mult, Hsg, Rmult_1_l. apply Hg. }
    assert (Hgm : forall s, - (sg * g s) <= c * exp (K * Rabs (s - t0))).
    { intros s. eapply Rle_trans; [apply Rle_abs|]. rewrite Rabs_Ropp, Rabs_mult, Hsg, Rmult_1_l. apply Hg. }
    destruct (Rle_dec t0 t) as [L|L].
    - pose proof (rising (fun s => c / K * exp (K * (s - t0)) - sg * RInt g t0 s) (fun s => c * exp (K * (s - t0)) - sg * g s) t0 t L) as M.
      cbv beta in M. rewrite E0 in M. replace (t0 - t0) with 0 in M by ring. rewrite Rmult_0_r, exp_0 in M. rewrite (Rabs_pos_eq (t - t0)) by lra.
      assert (Q := M ltac:(intros s _; apply (is_derive_minus (fun s => c / K * exp (K * (s - t0))) (fun s => sg * RInt g t0 s));
         [apply exp_up, HK|apply (is_derive_scal (fun s => RInt g t0 s) s sg), int_derive, Cg])
         ltac:(intros s Hs; specialize (Hgs s); rewrite Rabs_pos_eq in Hgs by lra; lra)). lra.
    - pose proof (rising (fun s => - (c / K * exp (K * (t0 - s)) - sg * RInt g t0 s)) (fun s => - (- (c * exp (K * (t0 - s))) - sg * g s)) t t0 ltac:(lra)) as M.
      cbv beta in M. rewrite E0 in M. replace (t0 - t0) with 0 in M by ring. rewrite Rmult_0_r, exp_0 in M. rewrite (Rabs_left1 (t - t0)) by lra.
      replace (- (t - t0)) with (t0 - t) by ring.
      assert (Q := M ltac:(intros s _; apply (is_derive_opp (fun s => c / K * exp (K * (t0 - s)) - sg * RInt g t0 s)); apply (is_derive_minus (fun s => c / K * exp (K * (t0 - s))) (fun s => sg * RInt g t0 s));
         [apply exp_down, HK|apply (is_derive_scal (fun s => RInt g t0 s) s sg), int_derive, Cg])
         ltac:(intros s Hs; specialize (Hgm s); rewrite (Rabs_left1 (s - t0)) in Hgm by lra; replace (- (s - t0)) with (t0 - s) in Hgm by ring; lra)). lra. }
  apply Rabs_le. pose proof (A 1 Rabs_R1). pose proof (A (-1) ltac:(rewrite Rabs_left; lra)). lra.
Qed.
Lemma int_bound (g : R -> R) B a b : (forall x, continuous g x) -> (forall s, Rabs (g s) <= B) -> Rabs (RInt g a b) <= B * Rabs (b - a).
Proof.
  intros Cg Hg. destruct (Rle_dec a b) as [L|L].
  - rewrite (Rabs_pos_eq (b - a)) by lra. rewrite Rmult_comm. apply abs_RInt_le_const; auto. apply cont_int, Cg.
  - rewrite <- (opp_RInt_swap g b a) by (apply cont_int, Cg). change (opp (RInt g b a)) with (- RInt g b a). rewrite Rabs_Ropp, (Rabs_left1 (b - a)) by lra.
    replace (B * - (b - a)) with ((a - b) * B) by ring. apply abs_RInt_le_const; auto; [lra|]. apply cont_int, Cg.
Qed.
Lemma half_zero a C : (forall n, Rabs a <= C * (1 / 2) ^ n) -> a = 0.
Proof.
  intros H. destruct (Req_dec a 0) as [E|N]; [exact E|exfalso]. pose proof (Rabs_pos_lt a N) as P.
  assert (L : is_lim_seq (fun n => C * (1 / 2) ^ n) (C * 0)).
  { apply (is_lim_seq_scal_l (fun n => (1 / 2) ^ n) C 0). apply is_lim_seq_geom. rewrite Rabs_pos_eq; lra. }
  rewrite Rmult_0_r in L. pose proof (is_lim_seq_le (fun _ => Rabs a) _ (Rabs a) 0 H (is_lim_seq_const (Rabs a)) L) as Q. cbn in Q. lra.
Qed.
Lemma exp_above x : 0 <= x -> x <= exp x.
Proof. intros H. destruct (Req_dec x 0) as [->|N]; [rewrite exp_0; lra|]. pose proof (exp_ineq1 x ltac:(lra)). lra. Qed.

Lemma drop_first x r : x + r - x = r.
Proof. ring. Qed.

Section Picard.
Variables (u v : R -> R -> R -> R) (B t0 x0 y0 : R).
Hypothesis Bu : forall x y s, Rabs (u x y s) <= B.
Hypothesis Bv : forall x y s, Rabs (v x y s) <= B.
Hypothesis Lu : forall p q r x y s, Rabs (u p q r - u x y s) <= B * (Rabs (p - x) + Rabs (q - y) + Rabs (r - s)).
Hypothesis Lv : forall p q r x y s, Rabs (v p q r - v x y s) <= B * (Rabs (p - x) + Rabs (q - y) + Rabs (r - s)).

Lemma B_pos : 0 <= B. Proof. pose proof (Bu 0 0 0). pose proof (Rabs_pos (u 0 0 0)). lra. Qed.
Notation K := (4 * B + 1).
Definition lip (f : R -> R) : Prop := forall a b, Rabs (f a - f b) <= B * Rabs (a - b).
Lemma along_lip w X Y : (forall p q r x y s, Rabs (w p q r - w x y s) <= B * (Rabs (p - x) + Rabs (q - y) + Rabs (r - s))) -> lip X -> lip Y ->
  forall x, continuous (fun s => w (X s) (Y s) s) x.
Proof.
  intros Lw HX HY. apply (lip_cont _ (B * (2 * B + 1))). intros a b. eapply Rle_trans; [apply Lw|]. pose proof B_pos. rewrite Rmult_assoc. apply Rmult_le_compat_l; [exact B_pos|].
  pose proof (HX a b). pose proof (HY a b). lra.
Qed.
Lemma int_lip x (g : R -> R) : (forall x, continuous g x) -> (forall s, Rabs (g s) <= B) -> lip (fun t => x + RInt g t0 t).
Proof.
  intros Cg Hg a b. replace (x + RInt g t0 a - (x + RInt g t0 b)) with (RInt g b a); [apply int_bound; assumption|].
  pose proof (RInt_Chasles g t0 b a ltac:(apply cont_int, Cg) ltac:(apply cont_int, Cg)) as C. change (RInt g t0 b + RInt g b a = RInt g t0 a) in C. lra.
Qed.

(** successive approximations *)
Fixpoint it (n : nat) : (R -> R) * (R -> R) :=
  match n with
  | O => (fun _ => x0, fun _ => y0)
  | S n => (fun t => x0 + RInt (fun s => u (fst (it n) s) (snd (it n) s) s) t0 t, fun t => y0 + RInt (fun s => v (fst (it n) s) (snd (it n) s) s) t0 t)
  end.
Lemma it_lip n : lip (fst (it n)) /\ lip (snd (it n)).
Proof.
  induction n as [|n (HX & HY)].
  - cbn. split; intros a b; (replace (_ - _) with 0 by ring); rewrite Rabs_R0; apply Rmult_le_pos; auto using B_pos, Rabs_pos.
  - cbn [it fst snd]. split; apply int_lip; intros; try apply Bu; try apply Bv; apply along_lip; assumption.
Qed.
Definition wgt (t : R) : R := exp (K * Rabs (t - t0)).
Lemma wgt_pos t : 0 < wgt t. Proof. apply exp_pos. Qed.
(** one step of the iteration halves a difference *)
Lemma halve w X Y X' Y' c t x : (forall p q r x y s, Rabs (w p q r - w x y s) <= B * (Rabs (p - x) + Rabs (q - y) + Rabs (r - s))) ->
  lip X -> lip Y -> lip X' -> lip Y' -> 0 <= c -> (forall s, Rabs (X s - X' s) <= c * wgt s) -> (forall s, Rabs (Y s - Y' s) <= c * wgt s) ->
  Rabs (x + RInt (fun s => w (X s) (Y s) s) t0 t - (x + RInt (fun s => w (X' s) (Y' s) s) t0 t)) <= c / 2 * wgt t.
Proof.
  intros Lw HX HY HX' HY' Hc DX DY. pose proof B_pos as HB.
  pose proof (along_lip w X Y Lw HX HY) as C1. pose proof (along_lip w X' Y' Lw HX' HY') as C2.
  pose proof (RInt_minus (fun s => w (X s) (Y s) s) (fun s => w (X' s) (Y' s) s) t0 t (cont_int _ _ _ C1) (cont_int _ _ _ C2)) as E.
  change (RInt (fun s => w (X s) (Y s) s - w (X' s) (Y' s) s) t0 t = RInt (fun s => w (X s) (Y s) s) t0 t - RInt (fun s => w (X' s) (Y' s) s) t0 t) in E.
  assert (E2 : forall p q r : R, p = q - r -> x + q - (x + r) = p) by (intros p q r ->; ring).
  rewrite (E2 _ _ _ E). clear E2.
  eapply Rle_trans; [apply (int_exp _ (2 * B * c) K)|].
  - apply Rmult_le_pos; lra.
  - lra.
  - intros z. apply (continuous_minus (fun s => w (X s) (Y s) s) (fun s => w (X' s) (Y' s) s)); auto.
  - intros s. eapply Rle_trans; [apply Lw|]. replace (s - s) with 0 by ring. rewrite Rabs_R0. fold (wgt s).
    replace (2 * B * c * wgt s) with (B * (c * wgt s + c * wgt s + 0)) by ring. apply Rmult_le_compat_l; [exact HB|]. pose proof (DX s). pose proof (DY s). lra.
  - fold (wgt t). apply Rmult_le_compat_r; [left; apply wgt_pos|]. apply (Rmult_le_reg_r K); [lra|]. replace (2 * B * c / K * K) with (2 * B * c) by (field; lra).
    replace (c / 2 * K) with (2 * B * c + c / 2) by field. lra.
Qed.
Lemma it_step n t : Rabs (fst (it (S n)) t - fst (it n) t) <= (1 / 2) ^ n * wgt t /\ Rabs (snd (it (S n)) t - snd (it n) t) <= (1 / 2) ^ n * wgt t.
Proof.
  revert t. induction n as [|n IH]; intros t.
  - assert (W : B * Rabs (t - t0) <= wgt t).
    { unfold wgt. pose proof (exp_above (K * Rabs (t - t0))) as E. pose proof B_pos. pose proof (Rabs_pos (t - t0)). specialize (E ltac:(apply Rmult_le_pos; lra)).
      assert (0 <= (3 * B + 1) * Rabs (t - t0)) by (apply Rmult_le_pos; lra). lra. }
    cbn [it fst snd pow]. rewrite Rmult_1_l. pose proof (it_lip 0) as (HX & HY). split.
    + rewrite (drop_first x0).
      eapply Rle_trans; [apply int_bound; [apply (along_lip u _ _ Lu HX HY)|intros; apply Bu]|exact W].
    + rewrite (drop_first y0).
      eapply Rle_trans; [apply int_bound; [apply (along_lip v _ _ Lv HX HY)|intros; apply Bv]|exact W].
  - destruct (it_lip n) as (A1 & A2). destruct (it_lip (S n)) as (A3 & A4). assert (P : 0 <= (1 / 2) ^ n) by (apply pow_le; lra).
    replace ((1 / 2) ^ S n) with ((1 / 2) ^ n / 2) by (cbn [pow]; field).
    split; [apply (halve u (fst (it (S n))) (snd (it (S n))) (fst (it n)) (snd (it n)))|apply (halve v (fst (it (S n))) (snd (it (S n))) (fst (it n)) (snd (it n)))]; auto; intros s; apply IH.
Qed.
Lemma gap (a : nat -> R) w : 0 <= w -> (forall n, Rabs (a (S n) - a n) <= (1 / 2) ^ n * w) -> forall n k, Rabs (a (n + k)%nat - a n) <= 2 * (1 / 2) ^ n * w * (1 - (1 / 2) ^ k).
Proof.
  intros Hw H n. induction k as [|k IH].
  - rewrite Nat.add_0_r. replace (a n - a n) with 0 by ring. rewrite Rabs_R0. cbn. lra.
  - rewrite Nat.add_succ_r. replace (a (S (n + k)) - a n) with ((a (S (n + k)) - a (n + k)%nat) + (a (n + k)%nat - a n)) by ring.
    eapply Rle_trans; [apply Rabs_triang|]. specialize (H (n + k)%nat). rewrite pow_add in H. cbn [pow]. lra.
Qed.
Lemma limit (a : nat -> R) w : 0 <= w -> (forall n, Rabs (a (S n) - a n) <= (1 / 2) ^ n * w) ->
  is_lim_seq a (real (Lim_seq a)) /\ forall n, Rabs (real (Lim_seq a) - a n) <= 2 * (1 / 2) ^ n * w.
Proof.
  intros Hw H. assert (G : forall n k, Rabs (a (n + k)%nat - a n) <= 2 * (1 / 2) ^ n * w).
  { intros n k. eapply Rle_trans; [apply (gap a w Hw H)|]. rewrite <- (Rmult_1_r (2 * (1 / 2) ^ n * w)) at 2. apply Rmult_le_compat_l.
    - apply Rmult_le_pos; [|exact Hw]. assert (0 <= (1 / 2) ^ n) by (apply pow_le; lra). lra.
    - assert (0 <= (1 / 2) ^ k) by (apply pow_le; lra). lra. }
  assert (C : ex_finite_lim_seq a).
  { apply ex_lim_seq_cauchy_corr. intros eps.
    assert (L : is_lim_seq (fun n => (4 * w) * (1 / 2) ^ n) ((4 * w) * 0)) by (apply (is_lim_seq_scal_l (fun n => (1 / 2) ^ n) (4 * w) 0), is_lim_seq_geom; rewrite Rabs_pos_eq; lra).
    rewrite Rmult_0_r in L. apply is_lim_seq_spec in L. destruct (L eps) as (N & HN). specialize (HN N (Nat.le_refl N)). rewrite Rminus_0_r in HN.
    assert (HN' : 4 * w * (1 / 2) ^ N < eps) by (eapply Rle_lt_trans; [apply Rle_abs|exact HN]).
    exists N. intros n m Hn Hm. replace n with (N + (n - N))%nat by lia. replace m with (N + (m - N))%nat by lia.
    replace (a (N + (n - N))%nat - a (N + (m - N))%nat) with ((a (N + (n - N))%nat - a N) - (a (N + (m - N))%nat - a N)) by ring.
    eapply Rle_lt_trans; [apply (Rabs_triang _ (- _))|]. rewrite Rabs_Ropp. pose proof (G N (n - N)%nat). pose proof (G N (m - N)%nat). lra. }
  apply Lim_seq_correct' in C. split; [exact C|]. intros n.
  assert (L : is_lim_seq (fun k => Rabs (a (n + k)%nat - a n)) (Rabs (real (Lim_seq a) - a n))).
  { apply (is_lim_seq_abs (fun k => a (n + k)%nat - a n) (real (Lim_seq a) - a n)).
    apply is_lim_seq_minus'; [|apply is_lim_seq_const]. apply (is_lim_seq_ext (fun k => a (k + n)%nat)); [intros k; f_equal; lia|]. apply is_lim_seq_incr_n. exact C. }
  pose proof (is_lim_seq_le _ (fun _ => 2 * (1 / 2) ^ n * w) _ _ (G n) L (is_lim_seq_const _)) as Q. exact Q.
Qed.
Definition PX (t : R) : R := real (Lim_seq (fun n => fst (it n) t)).
Definition PY (t : R) : R := real (Lim_seq (fun n => snd (it n) t)).
Lemma PX_near n t : Rabs (PX t - fst (it n) t) <= 2 * (1 / 2) ^ n * wgt t.
Proof. apply (limit (fun n => fst (it n) t)); [left; apply wgt_pos|intros; apply it_step]. Qed.
Lemma PY_near n t : Rabs (PY t - snd (it n) t) <= 2 * (1 / 2) ^ n * wgt t.
Proof. apply (limit (fun n => snd (it n) t)); [left; apply wgt_pos|intros; apply it_step]. Qed.
Lemma lim_lip (f : nat -> R -> R) : (forall n, lip (f n)) -> (forall t, is_lim_seq (fun n => f n t) (real (Lim_seq (fun n => f n t)))) -> lip (fun t => real (Lim_seq (fun n => f n t))).
Proof.
  intros H C a b. pose proof (is_lim_seq_minus' _ _ _ _ (C a) (C b)) as L. apply is_lim_seq_abs in L. cbn in L.
  exact (is_lim_seq_le _ (fun _ => B * Rabs (a - b)) _ _ (fun n => H n a b) L (is_lim_seq_const _)).
Qed.
Lemma PX_lip : lip PX.
Proof. apply (lim_lip (fun n => fst (it n))); [intros; apply it_lip|]. intros t. apply (limit (fun n => fst (it n) t) (wgt t)); [left; apply wgt_pos|intros; apply it_step]. Qed.
Lemma PY_lip : lip PY.
Proof. apply (lim_lip (fun n => snd (it n))); [intros; apply it_lip|]. intros t. apply (limit (fun n => snd (it n) t) (wgt t)); [left; apply wgt_pos|intros; apply it_step]. Qed.
Lemma fixed t : PX t = x0 + RInt (fun s => u (PX s) (PY s) s) t0 t /\ PY t = y0 + RInt (fun s => v (PX s) (PY s) s) t0 t.
Proof.
  assert (Z : forall n, 0 <= 2 * (1 / 2) ^ n) by (intros n; assert (0 <= (1 / 2) ^ n) by (apply pow_le; lra); lra).
  split; apply Rminus_diag_uniq; apply (half_zero _ (2 * wgt t)); intros n; destruct (it_lip n) as (A1 & A2).
  - replace (PX t - (x0 + RInt (fun s => u (PX s) (PY s) s) t0 t)) with ((PX t - fst (it (S n)) t) + (fst (it (S n)) t - (x0 + RInt (fun s => u (PX s) (PY s) s) t0 t))) by ring.
    eapply Rle_trans; [apply Rabs_triang|]. pose proof (PX_near (S n) t) as P. cbn [pow] in P.
    assert (Q : Rabs (fst (it (S n)) t - (x0 + RInt (fun s => u (PX s) (PY s) s) t0 t)) <= 2 * (1 / 2) ^ n / 2 * wgt t).
    { apply (halve u (fst (it n)) (snd (it n)) PX PY); auto using PX_lip, PY_lip; intros s; rewrite Rabs_minus_sym; [apply PX_near|apply PY_near]. }
    lra.
  - replace (PY t - (y0 + RInt (fun s => v (PX s) (PY s) s) t0 t)) with ((PY t - snd (it (S n)) t) + (snd (it (S n)) t - (y0 + RInt (fun s => v (PX s) (PY s) s) t0 t))) by ring.
    eapply Rle_trans; [apply Rabs_triang|]. pose proof (PY_near (S n) t) as P. cbn [pow] in P.
    assert (Q : Rabs (snd (it (S n)) t - (y0 + RInt (fun s => v (PX s) (PY s) s) t0 t)) <= 2 * (1 / 2) ^ n / 2 * wgt t).
    { apply (halve v (fst (it n)) (snd (it n)) PX PY); auto using PX_lip, PY_lip; intros s; rewrite Rabs_minus_sym; [apply PX_near|apply PY_near]. }
    lra.
Qed.
(** the trajectory through (x0, y0) at time t0 *)
Lemma trajectory_is : PX t0 = x0 /\ PY t0 = y0 /\ forall s, derivable_pt_lim PX s (u (PX s) (PY s) s) /\ derivable_pt_lim PY s (v (PX s) (PY s) s).
Proof.
  assert (E0 : forall g : R -> R, RInt g t0 t0 = 0) by (intros g; apply (RInt_point t0 g)).
  split; [rewrite (proj1 (fixed t0)), E0; ring|]. split; [rewrite (proj2 (fixed t0)), E0; ring|].
  intros s. split; apply is_derive_Reals.
  - apply (is_derive_ext (fun t => x0 + RInt (fun s => u (PX s) (PY s) s) t0 t)); [intros t; symmetry; apply fixed|].
    rewrite <- (Rplus_0_l (u (PX s) (PY s) s)). apply (is_derive_plus (fun _ => x0) (fun t => RInt (fun s => u (PX s) (PY s) s) t0 t)); [apply @is_derive_const|].
    apply (int_derive (fun s => u (PX s) (PY s) s)). apply along_lip; auto using PX_lip, PY_lip.
  - apply (is_derive_ext (fun t => y0 + RInt (fun s => v (PX s) (PY s) s) t0 t)); [intros t; symmetry; apply fixed|].
    rewrite <- (Rplus_0_l (v (PX s) (PY s) s)). apply (is_derive_plus (fun _ => y0) (fun t => RInt (fun s => v (PX s) (PY s) s) t0 t)); [apply @is_derive_const|].
    apply (int_derive (fun s => v (PX s) (PY s) s)). apply along_lip; auto using PX_lip, PY_lip.
Qed.

Theorem trajectory : exists X Y : R -> R, X t0 = x0 /\ Y t0 = y0 /\
  forall s, derivable_pt_lim X s (u (X s) (Y s) s) /\ derivable_pt_lim Y s (v (X s) (Y s) s).
Proof. exists PX, PY. exact trajectory_is. Qed.

(** two trajectories through one point agree before it *)
Lemma squares a b a' b' : Rabs a' <= B * (Rabs a + Rabs b) -> Rabs b' <= B * (Rabs a + Rabs b) -> Rabs (2 * (a * a') + 2 * (b * b')) <= 4 * B * (a * a + b * b).
Proof.
  intros Ha Hb. eapply Rle_trans; [apply Rabs_triang|]. rewrite !Rabs_mult, !(Rabs_pos_eq 2) by lra.
  pose proof (Rmult_le_compat_l _ _ _ (Rabs_pos a) Ha). pose proof (Rmult_le_compat_l _ _ _ (Rabs_pos b) Hb).
  replace (a * a) with (Rabs a * Rabs a) by (rewrite <- Rabs_mult; apply Rabs_pos_eq, Rle_0_sqr). replace (b * b) with (Rabs b * Rabs b) by (rewrite <- Rabs_mult; apply Rabs_pos_eq, Rle_0_sqr).
  pose proof B_pos. assert (0 <= B * ((Rabs a - Rabs b) * (Rabs a - Rabs b))) by (apply Rmult_le_pos; [assumption|apply Rle_0_sqr]). lra.
Qed.
Theorem one_trajectory lo (X Y X' Y' : R -> R) :
  (forall s, lo <= s <= t0 -> derivable_pt_lim X s (u (X s) (Y s) s) /\ derivable_pt_lim Y s (v (X s) (Y s) s)) ->
  (forall s, lo <= s <= t0 -> derivable_pt_lim X' s (u (X' s) (Y' s) s) /\ derivable_pt_lim Y' s (v (X' s) (Y' s) s)) ->
  X t0 = X' t0 -> Y t0 = Y' t0 -> forall s, lo <= s <= t0 -> X s = X' s /\ Y s = Y' s.
Proof.
  intros H H' EX EY s Hs. set (a t := X t - X' t). set (b t := Y t - Y' t).
  set (a' t := u (X t) (Y t) t - u (X' t) (Y' t) t). set (b' t := v (X t) (Y t) t - v (X' t) (Y' t) t).
  assert (Da : forall t, lo <= t <= t0 -> is_derive a t (a' t)).
  { intros t Ht. apply (is_derive_minus X X'); apply is_derive_Reals; [apply H|apply H']; exact Ht. }
  assert (Db : forall t, lo <= t <= t0 -> is_derive b t (b' t)).
  { intros t Ht. apply (is_derive_minus Y Y'); apply is_derive_Reals; [apply H|apply H']; exact Ht. }
  assert (S : forall t, Rabs (2 * (a t * a' t) + 2 * (b t * b' t)) <= 4 * B * (a t * a t + b t * b t)).
  { intros t. apply squares.
    - eapply Rle_trans; [apply Lu|]. replace (t - t) with 0 by ring. rewrite Rabs_R0, Rplus_0_r. unfold a, b. lra.
    - eapply Rle_trans; [apply Lv|]. replace (t - t) with 0 by ring. rewrite Rabs_R0, Rplus_0_r. unfold a, b. lra. }
  assert (M := rising (fun t => exp (4 * B * t) * (a t * a t + b t * b t)) (fun t => exp (4 * B * t) * (4 * B * (a t * a t + b t * b t) + (2 * (a t * a' t) + 2 * (b t * b' t)))) s t0 ltac:(lra)).
  cbv beta in M. assert (A0 : a t0 = 0) by (unfold a; rewrite EX; ring). assert (B0 : b t0 = 0) by (unfold b; rewrite EY; ring). rewrite A0, B0 in M.
  assert (Q : exp (4 * B * s) * (a s * a s + b s * b s) <= 0).
  { eapply Rle_trans; [apply M|lra].
    - intros t Ht. pose proof (Da t ltac:(lra)) as D1. pose proof (Db t ltac:(lra)) as D2.
      evar_last.
      + apply (is_derive_mult (fun t => exp (4 * B * t)) (fun t => a t * a t + b t * b t)).
        * auto_derive; [auto|reflexivity].
        * apply (is_derive_plus (fun t => a t * a t) (fun t => b t * b t)).
          -- apply (is_derive_mult a a); [exact D1|exact D1|intros; apply Rmult_comm].
          -- apply (is_derive_mult b b); [exact D2|exact D2|intros; apply Rmult_comm].
        * intros; apply Rmult_comm.
      + unfold plus, mult; cbn. ring.
    - intros t Ht. apply Rmult_le_pos; [left; apply exp_pos|]. pose proof (S t) as St. apply Rabs_le_between in St. lra. }
  assert (Z : a s * a s + b s * b s <= 0).
  { apply (Rmult_le_reg_l (exp (4 * B * s))); [apply exp_pos|]. rewrite Rmult_0_r. exact Q. }
  pose proof (Rle_0_sqr (a s)) as Z1. pose proof (Rle_0_sqr (b s)) as Z2. unfold Rsqr in Z1, Z2.
  assert (Ea : a s = 0) by (apply Rsqr_0_uniq; unfold Rsqr; lra). assert (Eb : b s = 0) by (apply Rsqr_0_uniq; unfold Rsqr; lra).
  unfold a in Ea. unfold b in Eb. lra.
Qed.
End Picard.
