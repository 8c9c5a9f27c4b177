(** The order of the back-trace: one step compared with the exact trajectory. *)
From Coq Require Import ZArith List Reals Lra Lia.
From Coquelicot Require Import Coquelicot.
From Verif Require Import Base Num ModelVec ModelInterp SpecGradient ModelRefMath SpecRef SpecRefOrder ProofsHermite ProofsTaylor ProofsRefMath ProofsRefHermite ProofsRefTrace.
Import ListNotations.
Open Scope R_scope.

(** *** Taylor's formula at the end of an interval *)
Lemma rev_d (f : R -> R) hi l t : derivable_pt_lim f (hi - t) l -> derivable_pt_lim (fun s => f (hi - s)) t (- l).
Proof.
  intros D. eapply ProofsTaylor.d_eq; [apply (derivable_pt_lim_comp (fun s => hi - s) f)|].
  - apply (derivable_pt_lim_minus (fun _ => hi) id); [apply derivable_pt_lim_const|apply derivable_pt_lim_id].
  - exact D.
  - ring.
Qed.
Lemma rev_d' (f : R -> R) hi l t : derivable_pt_lim f (hi - t) l -> derivable_pt_lim (fun s => - f (hi - s)) t l.
Proof. intros D. apply rev_d in D. apply (derivable_pt_lim_opp _ t) in D. rewrite Ropp_involutive in D. exact D. Qed.

Lemma taylor0 h M f d1 : derivs 0 h f [d1] -> (forall t, 0 <= t <= h -> Rabs (d1 t) <= M) -> forall t, 0 <= t <= h -> Rabs (f t - f 0) <= M * t.
Proof.
  intros (D1 & _) HM. apply (growth (fun t => f t - f 0) d1 (fun t => M * t) (fun _ => M)); auto; try lra.
  - intros t Ht. eapply ProofsTaylor.d_eq; [apply (derivable_pt_lim_minus f (fun _ => f 0)); [apply D1; auto|apply derivable_pt_lim_const]|ring].
  - intros t _. apply ProofsTaylor.d_lin.
Qed.
Lemma taylor1 h M f d1 d2 : derivs 0 h f [d1; d2] -> (forall t, 0 <= t <= h -> Rabs (d2 t) <= M) ->
  forall t, 0 <= t <= h -> Rabs (f t - (f 0 + d1 0 * t)) <= M / 2 * t ^ 2.
Proof.
  intros (D1 & D) HM. pose proof (taylor0 h M d1 d2 D HM) as R0.
  apply (growth (fun t => f t - (f 0 + d1 0 * t)) (fun t => d1 t - d1 0) (fun t => M / 2 * t ^ 2) (fun t => M * t)); auto; try lra.
  - intros t Ht. eapply ProofsTaylor.d_eq; [apply (derivable_pt_lim_minus f (fun t => f 0 + d1 0 * t)); [apply D1; auto|]|].
    + apply (derivable_pt_lim_plus (fun t => f 0) (fun t => d1 0 * t)); [apply derivable_pt_lim_const|apply ProofsTaylor.d_lin].
    + ring.
  - intros t _. eapply ProofsTaylor.d_eq; [apply d_pow|]. cbn. field.
Qed.

Section Path.
Variables (lo h : R) (Z Z1 Z2 Z3 Z4 : R -> R) (V M2 M3 M4 : R).
Hypothesis Hh : 0 <= h.
Notation hi := (lo + h).
Hypothesis HD : derivs lo hi Z [Z1; Z2; Z3; Z4].
Hypothesis HM : forall s, lo <= s <= hi -> Rabs (Z1 s) <= V /\ Rabs (Z2 s) <= M2 /\ Rabs (Z3 s) <= M3 /\ Rabs (Z4 s) <= M4.

Lemma rev_derivs : derivs 0 h (fun s => Z (hi - s)) [(fun s => - Z1 (hi - s)); (fun s => Z2 (hi - s)); (fun s => - Z3 (hi - s)); (fun s => Z4 (hi - s))].
Proof.
  destruct HD as (D1 & D2 & D3 & D4 & _). cbn. repeat split; intros t Ht.
  - apply rev_d, D1. lra.
  - apply rev_d', D2. lra.
  - apply rev_d, D3. lra.
  - apply rev_d', D4. lra.
Qed.
Lemma path_taylor t : 0 <= t <= h -> let z := hi - t in
  Rabs (Z z - Z hi) <= V * t /\ Rabs (Z z - (Z hi - Z1 hi * t)) <= M2 / 2 * t ^ 2 /\
  Rabs (Z z - (Z hi - Z1 hi * t + Z2 hi / 2 * t ^ 2)) <= M3 / 6 * t ^ 3 /\
  Rabs (Z z - (Z hi - Z1 hi * t + Z2 hi / 2 * t ^ 2 - Z3 hi / 6 * t ^ 3)) <= M4 / 24 * t ^ 4 /\
  Rabs (Z1 z - Z1 hi) <= M2 * t /\ Rabs (Z1 z - (Z1 hi - Z2 hi * t)) <= M3 / 2 * t ^ 2 /\
  Rabs (Z1 z - (Z1 hi - Z2 hi * t + Z3 hi / 2 * t ^ 2)) <= M4 / 6 * t ^ 3.
Proof.
  intros Ht z. destruct rev_derivs as (D1 & D2 & D3 & D4 & _).
  assert (B : forall s, 0 <= s <= h -> Rabs (Z1 (hi - s)) <= V /\ Rabs (Z2 (hi - s)) <= M2 /\ Rabs (Z3 (hi - s)) <= M3 /\ Rabs (Z4 (hi - s)) <= M4) by (intros s Hs; apply HM; lra).
  pose proof (taylor0 h V _ _ (conj D1 I) (fun s Hs => eq_ind_r (fun e => e <= V) (proj1 (B s Hs)) (Rabs_Ropp _)) t Ht) as T0.
  pose proof (taylor1 h M2 _ _ _ (conj D1 (conj D2 I)) (fun s Hs => proj1 (proj2 (B s Hs))) t Ht) as T1.
  pose proof (taylor2 h M3 _ _ _ _ (conj D1 (conj D2 (conj D3 I))) (fun s Hs => eq_ind_r (fun e => e <= M3) (proj1 (proj2 (proj2 (B s Hs)))) (Rabs_Ropp _)) t Ht) as T2.
  pose proof (taylor3 h M4 _ _ _ _ _ (conj D1 (conj D2 (conj D3 (conj D4 I)))) (fun s Hs => proj2 (proj2 (proj2 (B s Hs)))) t Ht) as T3.
  pose proof (taylor0 h M2 _ _ (conj D2 I) (fun s Hs => proj1 (proj2 (B s Hs))) t Ht) as S0.
  pose proof (taylor1 h M3 _ _ _ (conj D2 (conj D3 I)) (fun s Hs => eq_ind_r (fun e => e <= M3) (proj1 (proj2 (proj2 (B s Hs)))) (Rabs_Ropp _)) t Ht) as S1.
  pose proof (taylor2 h M4 _ _ _ _ (conj D2 (conj D3 (conj D4 I))) (fun s Hs => proj2 (proj2 (proj2 (B s Hs)))) t Ht) as S2.
  cbv beta in *. rewrite !Rminus_0_r in *. fold z in T0, T1, T2, T3, S0, S1, S2.
  repeat split; try assumption.
  - eapply Rle_trans; [|exact T1]. right. f_equal. ring.
  - eapply Rle_trans; [|exact T2]. right. f_equal. ring.
  - eapply Rle_trans; [|exact T3]. right. f_equal. field.
  - eapply Rle_trans; [|exact S0]. right. rewrite <- Rabs_Ropp. f_equal. ring.
  - eapply Rle_trans; [|exact S1]. right. rewrite <- Rabs_Ropp. f_equal. ring.
  - eapply Rle_trans; [|exact S2]. right. rewrite <- Rabs_Ropp. f_equal. field.
Qed.
Lemma path_simpson : Rabs (Z lo - (Z hi - h / 6 * (Z1 hi + Z1 lo + 4 * Z1 (lo + h / 2)))) <= h ^ 4 / 12 * M4.
Proof.
  pose proof (path_taylor h ltac:(lra)) as T. pose proof (path_taylor (h / 2) ltac:(lra)) as S. cbv zeta in T, S.
  replace (hi - h) with lo in T by ring. replace (hi - h / 2) with (lo + h / 2) in S by field.
  destruct T as (_ & _ & _ & T1 & _ & _ & T2). destruct S as (_ & _ & _ & _ & _ & _ & S2).
  match type of T1 with Rabs ?e <= _ => set (a := e) in * end. match type of T2 with Rabs ?e <= _ => set (b := e) in * end. match type of S2 with Rabs ?e <= _ => set (c := e) in * end.
  replace (Z lo - _) with (a + h / 6 * b + 4 * h / 6 * c) by (unfold a, b, c; field).
  eapply Rle_trans; [apply Rabs_triang|]. eapply Rle_trans; [apply Rplus_le_compat_r, Rabs_triang|].
  rewrite !Rabs_mult, (Rabs_pos_eq (h / 6)), (Rabs_pos_eq (4 * h / 6)) by lra.
  assert (h / 6 * Rabs b <= h / 6 * (M4 / 6 * h ^ 3)) by (apply Rmult_le_compat_l; lra).
  assert (4 * h / 6 * Rabs c <= 4 * h / 6 * (M4 / 6 * (h / 2) ^ 3)) by (apply Rmult_le_compat_l; lra).
  replace (h ^ 4 / 12 * M4) with (M4 / 24 * h ^ 4 + h / 6 * (M4 / 6 * h ^ 3) + 4 * h / 6 * (M4 / 6 * (h / 2) ^ 3)) by field. lra.
Qed.
End Path.

(** *** the mean value theorem in the plane *)
Lemma mean2 (u ux uy : R -> R -> R) p q p' q' : (forall x y, differentiable_pt_lim u x y (ux x y) (uy x y)) ->
  exists th, 0 <= th <= 1 /\ let x := p' + th * (p - p') in let y := q' + th * (q - q') in u p q - u p' q' = ux x y * (p - p') + uy x y * (q - q').
Proof.
  intros D. set (x := fun s => p' + s * (p - p')). set (y := fun s => q' + s * (q - q')).
  assert (DX : forall s, derivable_pt_lim x s (p - p')).
  { intros s. apply is_derive_Reals. unfold x. auto_derive; [auto|ring]. }
  assert (DY : forall s, derivable_pt_lim y s (q - q')).
  { intros s. apply is_derive_Reals. unfold y. auto_derive; [auto|ring]. }
  assert (C : forall s, derivable_pt_lim (fun s => u (x s) (y s)) s (ux (x s) (y s) * (p - p') + uy (x s) (y s) * (q - q'))).
  { intros s. apply derivable_pt_lim_comp_2d; [apply D|apply DX|apply DY]. }
  destruct (MVT_cor2 (fun s => u (x s) (y s)) (fun s => ux (x s) (y s) * (p - p') + uy (x s) (y s) * (q - q')) 0 1 Rlt_0_1 (fun s _ => C s)) as (th & E & Hth).
  exists th. split; [lra|]. cbv zeta. fold (x th) (y th). unfold x at 1 2, y at 1 2 in E.
  replace (p' + 1 * (p - p')) with p in E by ring. replace (q' + 1 * (q - q')) with q in E by ring.
  replace (p' + 0 * (p - p')) with p' in E by ring. replace (q' + 0 * (q - q')) with q' in E by ring. lra.
Qed.
Lemma between r a b c th : 0 <= th <= 1 -> Rabs (a - c) <= r -> Rabs (b - c) <= r -> Rabs (b + th * (a - b) - c) <= r.
Proof.
  intros Ht H1 H2. replace (b + th * (a - b) - c) with (th * (a - c) + (1 - th) * (b - c)) by ring.
  eapply Rle_trans; [apply Rabs_triang|]. rewrite !Rabs_mult, (Rabs_pos_eq th), (Rabs_pos_eq (1 - th)) by lra.
  apply Rle_trans with (th * r + (1 - th) * r); [|right; ring]. apply Rplus_le_compat; apply Rmult_le_compat_l; lra.
Qed.

(** *** one stage *)
Lemma pair_le a b p q L d : Rabs a + Rabs b <= L -> Rabs p <= d -> Rabs q <= d -> Rabs (a * p + b * q) <= L * d.
Proof.
  intros H Hp Hq. assert (0 <= d) by (eapply Rle_trans; [apply Rabs_pos|exact Hp]).
  eapply Rle_trans; [apply Rabs_triang|]. rewrite !Rabs_mult.
  apply Rle_trans with (Rabs a * d + Rabs b * d); [apply Rplus_le_compat; apply Rmult_le_compat_l; auto using Rabs_pos|].
  rewrite <- Rmult_plus_distr_r. apply Rmult_le_compat_r; assumption.
Qed.
Lemma stage (w wx wy : R -> R -> R) x y r L G a b p q p' q' d :
  (forall x y, differentiable_pt_lim w x y (wx x y) (wy x y)) ->
  (forall p q, Rabs (p - x) <= r -> Rabs (q - y) <= r -> Rabs (wx p q) + Rabs (wy p q) <= L /\ Rabs (wx p q - a) <= G /\ Rabs (wy p q - b) <= G) ->
  Rabs (p - x) <= r -> Rabs (q - y) <= r -> Rabs (p' - x) <= r -> Rabs (q' - y) <= r -> Rabs (p - p') <= d -> Rabs (q - q') <= d ->
  Rabs (w p q - w p' q') <= L * d /\ Rabs (w p q - w p' q' - (a * (p - p') + b * (q - q'))) <= 2 * G * d.
Proof.
  intros D H Hp Hq Hp' Hq' Dp Dq. destruct (mean2 w wx wy p q p' q' D) as (th & Ht & E). cbv zeta in E. rewrite E. clear E.
  destruct (H (p' + th * (p - p')) (q' + th * (q - q'))) as (H1 & H2 & H3); [apply between; assumption..|].
  set (k := wx _ _) in *. set (l := wy _ _) in *. clearbody k l. split; [apply pair_le; assumption|].
  replace (k * (p - p') + l * (q - q') - (a * (p - p') + b * (q - q'))) with ((k - a) * (p - p') + (l - b) * (q - q')) by ring.
  apply pair_le; [lra|assumption..].
Qed.

Section Order.
Variables (F : flow R) (Tp x y lo h V M2 M3 M4 L N : R) (X Y : R -> R).
Notation hi := (lo + h).
Notation tm := (lo + h / 2).
Hypothesis Hh : 0 <= h.
Hypothesis HN : 0 <= N.
Hypothesis HF : true_gradients F Tp.
Hypothesis HX : follows F Tp lo hi X Y.
Hypothesis BX : bounded4 lo hi X V M2 M3 M4.
Hypothesis BY : bounded4 lo hi Y V M2 M3 M4.
Hypothesis EX : X hi = x.
Hypothesis EY : Y hi = y.
Hypothesis HC : calm F Tp x y lo hi (V * h) V L N.
Let G := N * (1 + 2 * V) * h.
Let u p q s := Velx F p q s Tp.
Let v p q s := Vely F p q s Tp.
Let xa := x - h * u x y hi.
Let ya := y - h * v x y hi.
Let xb := x - h / 4 * (u x y hi + u xa ya lo).
Let yb := y - h / 4 * (v x y hi + v xa ya lo).

Lemma V_pos : 0 <= V.
Proof. destruct BX as (X1 & X2 & X3 & X4 & _ & B). destruct (B lo ltac:(lra)) as (B1 & _). eapply Rle_trans; [apply Rabs_pos|exact B1]. Qed.
Lemma region p q s : Rabs (p - x) <= V * h -> Rabs (q - y) <= V * h -> lo <= s <= hi ->
  Rabs (u p q s) <= V /\ Rabs (v p q s) <= V /\
  (Rabs (gradUx F p q s Tp) + Rabs (gradUy F p q s Tp) <= L /\ Rabs (gradUx F p q s Tp - gradUx F x y hi Tp) <= G /\ Rabs (gradUy F p q s Tp - gradUy F x y hi Tp) <= G) /\
  (Rabs (gradVx F p q s Tp) + Rabs (gradVy F p q s Tp) <= L /\ Rabs (gradVx F p q s Tp - gradVx F x y hi Tp) <= G /\ Rabs (gradVy F p q s Tp - gradVy F x y hi Tp) <= G).
Proof.
  intros Hp Hq Hs. destruct (HC p q s Hp Hq Hs) as (C1 & C2 & C3 & C4 & C5). cbv zeta in C5.
  assert (K : N * (Rabs (p - x) + Rabs (q - y) + Rabs (s - hi)) <= G).
  { unfold G. rewrite Rmult_assoc. apply Rmult_le_compat_l; [exact HN|]. assert (Rabs (s - hi) <= h) by (apply Rabs_le; lra). lra. }
  repeat split; try assumption; eapply Rle_trans; try exact K; apply C5.
Qed.
Lemma in_path Z : bounded4 lo hi Z V M2 M3 M4 -> forall s, lo <= s <= hi -> Rabs (Z s - Z hi) <= V * h.
Proof.
  intros (Z1 & Z2 & Z3 & Z4 & D & B) s Hs. pose proof (path_taylor lo h Z Z1 Z2 Z3 Z4 V M2 M3 M4 D B (hi - s) ltac:(lra)) as (T & _). replace (hi - (hi - s)) with s in T by ring.
  eapply Rle_trans; [exact T|]. apply Rmult_le_compat_l; [exact V_pos|lra].
Qed.
Lemma step_in k z t : Rabs k <= V -> 0 <= t <= h -> Rabs (z - t * k - z) <= V * h.
Proof.
  intros Hk Ht. replace (z - t * k - z) with (- (t * k)) by ring. rewrite Rabs_Ropp, Rabs_mult, (Rabs_pos_eq t), Rmult_comm by lra.
  apply Rmult_le_compat; try lra. apply Rabs_pos.
Qed.
Lemma at_xy : Rabs (x - x) <= V * h /\ Rabs (y - y) <= V * h.
Proof. pose proof V_pos. rewrite !Rminus_diag_eq, Rabs_R0 by reflexivity. split; apply Rmult_le_pos; lra. Qed.
Lemma first_in : Rabs (xa - x) <= V * h /\ Rabs (ya - y) <= V * h.
Proof. destruct at_xy as (A1 & A2). destruct (region x y hi A1 A2 ltac:(lra)) as (C1 & C2 & _). split; apply step_in; try lra; assumption. Qed.
Lemma second_in : Rabs (xb - x) <= V * h /\ Rabs (yb - y) <= V * h.
Proof.
  destruct at_xy as (A1 & A2). destruct (region x y hi A1 A2 ltac:(lra)) as (C1 & C2 & _).
  destruct first_in as (I1 & I2). destruct (region xa ya lo I1 I2 ltac:(lra)) as (D1 & D2 & _).
  assert (K : forall a b z, Rabs a <= V -> Rabs b <= V -> Rabs (z - h / 4 * (a + b) - z) <= V * h).
  { intros a b z Ha Hb. replace (z - h / 4 * (a + b) - z) with (z - h / 2 * ((a + b) / 2) - z) by field. apply step_in; [|lra].
    unfold Rdiv. rewrite Rabs_mult, (Rabs_pos_eq (/ 2)) by lra. pose proof (Rabs_triang a b). lra. }
  split; apply K; assumption.
Qed.
Lemma unique1 Z Z1 f : derivs lo hi Z [Z1] -> (forall s, lo <= s <= hi -> derivable_pt_lim Z s (f s)) -> forall s, lo <= s <= hi -> Z1 s = f s.
Proof. intros (D & _) H s Hs. eapply uniqueness_limite; [apply D; exact Hs|apply H; exact Hs]. Qed.

(** distances of the stages from the trajectory, for one component with velocity w *)
Lemma offsets w Z : let za := Z hi - h * w x y hi in
  bounded4 lo hi Z V M2 M3 M4 -> (forall s, lo <= s <= hi -> derivable_pt_lim Z s (w (X s) (Y s) s)) ->
  exists Z1 Z2, (forall s, lo <= s <= hi -> Z1 s = w (X s) (Y s) s) /\
    Rabs (Z lo - za) <= M2 / 2 * h ^ 2 /\ Rabs (Z lo - za - Z2 / 2 * h ^ 2) <= M3 / 6 * h ^ 3 /\
    (forall e, Rabs (w (X lo) (Y lo) lo - w xa ya lo) <= e -> let zb := Z hi - h / 4 * (w x y hi + w xa ya lo) in
       Rabs (Z tm - zb) <= 3 / 8 * M2 * h ^ 2 + h / 4 * e /\ Rabs (Z tm - zb + Z2 / 8 * h ^ 2) <= 7 / 48 * M3 * h ^ 3 + h / 4 * e) /\
    Rabs (Z lo - (Z hi - h / 6 * (Z1 hi + Z1 lo + 4 * Z1 tm))) <= h ^ 4 / 12 * M4.
Proof.
  intros za (Z1 & Z2 & Z3 & Z4 & D & B) HW. exists Z1, (Z2 hi).
  assert (E : forall s, lo <= s <= hi -> Z1 s = w (X s) (Y s) s) by (apply (unique1 Z); [exact (conj (proj1 D) I)|exact HW]).
  assert (E1 : w x y hi = Z1 hi) by (rewrite E, EX, EY by lra; reflexivity).
  pose proof (path_taylor lo h Z Z1 Z2 Z3 Z4 V M2 M3 M4 D B h ltac:(lra)) as T. pose proof (path_taylor lo h Z Z1 Z2 Z3 Z4 V M2 M3 M4 D B (h / 2) ltac:(lra)) as S. cbv zeta in T, S.
  replace (hi - h) with lo in T by ring. replace (hi - h / 2) with tm in S by field.
  destruct T as (_ & T1 & T2 & _ & T3 & T4 & _). destruct S as (_ & S1 & S2 & _).
  split; [exact E|]. unfold za. rewrite E1. split; [eapply Rle_trans; [|exact T1]; right; f_equal; ring|].
  split; [eapply Rle_trans; [|exact T2]; right; f_equal; ring|]. split.
  - intros e He. cbv zeta. rewrite <- (E lo ltac:(lra)) in He. set (k2 := w xa ya lo) in *. clearbody k2.
    assert (He' : Rabs (h / 4 * (Z1 lo - k2)) <= h / 4 * e) by (rewrite Rabs_mult, (Rabs_pos_eq (h / 4)) by lra; apply Rmult_le_compat_l; lra).
    assert (Q1 : Rabs (h / 4 * (Z1 lo - Z1 hi)) <= h / 4 * (M2 * h)) by (rewrite Rabs_mult, (Rabs_pos_eq (h / 4)) by lra; apply Rmult_le_compat_l; lra).
    assert (Q2 : Rabs (h / 4 * (Z1 lo - (Z1 hi - Z2 hi * h))) <= h / 4 * (M3 / 2 * h ^ 2)) by (rewrite Rabs_mult, (Rabs_pos_eq (h / 4)) by lra; apply Rmult_le_compat_l; lra).
    split.
    + replace (Z tm - _) with ((Z tm - (Z hi - Z1 hi * (h / 2))) + (h / 4 * (Z1 lo - Z1 hi) - h / 4 * (Z1 lo - k2))) by field.
      eapply Rle_trans; [apply Rabs_triang|]. eapply Rle_trans; [apply Rplus_le_compat_l, Rabs_triang|]. rewrite Rabs_Ropp.
      replace (3 / 8 * M2 * h ^ 2 + h / 4 * e) with (M2 / 2 * (h / 2) ^ 2 + (h / 4 * (M2 * h) + h / 4 * e)) by field. lra.
    + replace (Z tm - _ + _) with ((Z tm - (Z hi - Z1 hi * (h / 2) + Z2 hi / 2 * (h / 2) ^ 2)) + (h / 4 * (Z1 lo - (Z1 hi - Z2 hi * h)) - h / 4 * (Z1 lo - k2))) by field.
      eapply Rle_trans; [apply Rabs_triang|]. eapply Rle_trans; [apply Rplus_le_compat_l, Rabs_triang|]. rewrite Rabs_Ropp.
      replace (7 / 48 * M3 * h ^ 3 + h / 4 * e) with (M3 / 6 * (h / 2) ^ 3 + (h / 4 * (M3 / 2 * h ^ 2) + h / 4 * e)) by field. lra.
  - exact (path_simpson lo h Z Z1 Z2 Z3 Z4 V M2 M3 M4 Hh D B).
Qed.

Lemma order3 : Rabs (X lo - (x - h / 6 * (u x y hi + u xa ya lo + 4 * u xb yb tm))) <= trace_bound h V M2 M3 M4 L N /\
  Rabs (Y lo - (y - h / 6 * (v x y hi + v xa ya lo + 4 * v xb yb tm))) <= trace_bound h V M2 M3 M4 L N.
Proof.
  destruct (offsets u X BX (fun s Hs => proj1 (HX s Hs))) as (X1 & x2 & EX1 & A1 & A2 & A3 & A4).
  destruct (offsets v Y BY (fun s Hs => proj2 (HX s Hs))) as (Y1 & y2 & EY1 & B1 & B2 & B3 & B4).
  rewrite EX in A1, A2, A3, A4. rewrite EY in B1, B2, B3, B4. fold xa in A1, A2. fold ya in B1, B2.
  assert (IL : Rabs (X lo - x) <= V * h /\ Rabs (Y lo - y) <= V * h) by (rewrite <- EX, <- EY; split; apply in_path; auto; lra).
  assert (IM : Rabs (X tm - x) <= V * h /\ Rabs (Y tm - y) <= V * h) by (rewrite <- EX, <- EY; split; apply in_path; auto; lra).
  destruct IL as (IL1 & IL2). destruct IM as (IM1 & IM2). destruct first_in as (IA1 & IA2). destruct second_in as (IB1 & IB2).
  set (d2 := M2 / 2 * h ^ 2) in *.
  assert (SU : forall s, lo <= s <= hi -> forall p q p' q' d, Rabs (p - x) <= V * h -> Rabs (q - y) <= V * h -> Rabs (p' - x) <= V * h -> Rabs (q' - y) <= V * h ->
     Rabs (p - p') <= d -> Rabs (q - q') <= d -> Rabs (u p q s - u p' q' s) <= L * d /\
       Rabs (u p q s - u p' q' s - (gradUx F x y hi Tp * (p - p') + gradUy F x y hi Tp * (q - q'))) <= 2 * G * d).
  { intros s Hs p q p' q' d. apply (stage (fun p q => u p q s) (fun p q => gradUx F p q s Tp) (fun p q => gradUy F p q s Tp)); [intros; apply HF|].
    intros a b Ha Hb. apply (region a b s Ha Hb Hs). }
  assert (SV : forall s, lo <= s <= hi -> forall p q p' q' d, Rabs (p - x) <= V * h -> Rabs (q - y) <= V * h -> Rabs (p' - x) <= V * h -> Rabs (q' - y) <= V * h ->
     Rabs (p - p') <= d -> Rabs (q - q') <= d -> Rabs (v p q s - v p' q' s) <= L * d /\
       Rabs (v p q s - v p' q' s - (gradVx F x y hi Tp * (p - p') + gradVy F x y hi Tp * (q - q'))) <= 2 * G * d).
  { intros s Hs p q p' q' d. apply (stage (fun p q => v p q s) (fun p q => gradVx F p q s Tp) (fun p q => gradVy F p q s Tp)); [intros; apply HF|].
    intros a b Ha Hb. apply (region a b s Ha Hb Hs). }
  destruct (SU lo ltac:(lra) (X lo) (Y lo) xa ya d2 IL1 IL2 IA1 IA2 A1 B1) as (U1 & U2).
  destruct (SV lo ltac:(lra) (X lo) (Y lo) xa ya d2 IL1 IL2 IA1 IA2 A1 B1) as (V1 & V2).
  destruct (A3 _ U1) as (A5 & A6). destruct (B3 _ V1) as (B5 & B6). cbv zeta in A5, A6, B5, B6. fold xb in A5, A6. fold yb in B5, B6.
  set (d3 := 3 / 8 * M2 * h ^ 2 + h / 4 * (L * d2)) in *. set (D3 := 7 / 48 * M3 * h ^ 3 + h / 4 * (L * d2)) in *.
  destruct (SU tm ltac:(lra) (X tm) (Y tm) xb yb d3 IM1 IM2 IB1 IB2 A5 B5) as (_ & U3).
  destruct (SV tm ltac:(lra) (X tm) (Y tm) xb yb d3 IM1 IM2 IB1 IB2 A5 B5) as (_ & V3).
  assert (SX : Rabs ((X lo - xa) + 4 * (X tm - xb)) <= M3 / 6 * h ^ 3 + 4 * D3).
  { replace ((X lo - xa) + 4 * (X tm - xb)) with ((X lo - xa - x2 / 2 * h ^ 2) + 4 * (X tm - xb + x2 / 8 * h ^ 2)) by field.
    eapply Rle_trans; [apply Rabs_triang|]. rewrite Rabs_mult, (Rabs_pos_eq 4) by lra. lra. }
  assert (SY : Rabs ((Y lo - ya) + 4 * (Y tm - yb)) <= M3 / 6 * h ^ 3 + 4 * D3).
  { replace ((Y lo - ya) + 4 * (Y tm - yb)) with ((Y lo - ya - y2 / 2 * h ^ 2) + 4 * (Y tm - yb + y2 / 8 * h ^ 2)) by field.
    eapply Rle_trans; [apply Rabs_triang|]. rewrite Rabs_mult, (Rabs_pos_eq 4) by lra. lra. }
  destruct at_xy as (I1 & I2). destruct (region x y hi I1 I2 ltac:(lra)) as (_ & _ & (LU & _) & (LV & _)).
  pose proof (pair_le _ _ _ _ _ _ LU SX SY) as PU. pose proof (pair_le _ _ _ _ _ _ LV SX SY) as PV.
  rewrite (EX1 hi), (EX1 lo), (EX1 tm), EX, EY in A4 by lra. rewrite (EY1 hi), (EY1 lo), (EY1 tm), EX, EY in B4 by lra.
  assert (FIN : forall zl z k1 wl wa wm wb a b, Rabs (zl - (z - h / 6 * (k1 + wl + 4 * wm))) <= h ^ 4 / 12 * M4 ->
     Rabs (wl - wa - (a * (X lo - xa) + b * (Y lo - ya))) <= 2 * G * d2 -> Rabs (wm - wb - (a * (X tm - xb) + b * (Y tm - yb))) <= 2 * G * d3 ->
     Rabs (a * (X lo - xa + 4 * (X tm - xb)) + b * (Y lo - ya + 4 * (Y tm - yb))) <= L * (M3 / 6 * h ^ 3 + 4 * D3) ->
     Rabs (zl - (z - h / 6 * (k1 + wa + 4 * wb))) <= trace_bound h V M2 M3 M4 L N).
  { intros zl z k1 wl wa wm wb a b H1 H2 H3 H4. set (e4 := a * (X lo - xa + 4 * (X tm - xb)) + b * (Y lo - ya + 4 * (Y tm - yb))) in *.
    set (e2 := wl - wa - (a * (X lo - xa) + b * (Y lo - ya))) in *. set (e3 := wm - wb - (a * (X tm - xb) + b * (Y tm - yb))) in *.
    replace (zl - (z - h / 6 * (k1 + wa + 4 * wb))) with ((zl - (z - h / 6 * (k1 + wl + 4 * wm))) - h / 6 * (e2 + 4 * e3 + e4)) by (unfold e2, e3, e4; field).
    eapply Rle_trans; [apply Rabs_triang|]. rewrite Rabs_Ropp, Rabs_mult, (Rabs_pos_eq (h / 6)) by lra.
    assert (E : Rabs (e2 + 4 * e3 + e4) <= 2 * G * d2 + 4 * (2 * G * d3) + L * (M3 / 6 * h ^ 3 + 4 * D3)).
    { eapply Rle_trans; [apply Rabs_triang|]. eapply Rle_trans; [apply Rplus_le_compat_r, Rabs_triang|]. rewrite (Rabs_mult 4), (Rabs_pos_eq 4) by lra. lra. }
    apply (Rmult_le_compat_l (h / 6)) in E; [|lra]. 
    replace (trace_bound h V M2 M3 M4 L N) with (h ^ 4 / 12 * M4 + h / 6 * (2 * G * d2 + 4 * (2 * G * d3) + L * (M3 / 6 * h ^ 3 + 4 * D3)))
      by (unfold trace_bound, G, d2, d3, D3, d2; field). lra. }
  split; [eapply FIN; [exact A4|exact U2|exact U3|exact PU]|eapply FIN; [exact B4|exact V2|exact V3|exact PV]].
Qed.
End Order.

Lemma rk3_order F Tp t dt X Y V M2 M3 M4 L N : step_number t -> 0 <= dt -> 0 <= N -> true_gradients F Tp ->
  let lo := IZR t * dt in let hi := (IZR t + 1) * dt in
  follows F Tp lo hi X Y -> bounded4 lo hi X V M2 M3 M4 -> bounded4 lo hi Y V M2 M3 M4 -> calm F Tp (X hi) (Y hi) lo hi (V * dt) V L N ->
  let p := back_trace F true (X hi) (Y hi) t dt Tp in
  Rabs (X lo - fst p) <= trace_bound dt V M2 M3 M4 L N /\ Rabs (Y lo - snd p) <= trace_bound dt V M2 M3 M4 L N.
Proof.
  intros Ht Hdt HN HF lo hi. replace hi with (lo + dt) by (unfold lo, hi; ring). intros HX BX BY HC.
  destruct (order3 F Tp (X (lo + dt)) (Y (lo + dt)) lo dt V M2 M3 M4 L N X Y Hdt HN HF HX BX BY eq_refl eq_refl HC) as (O1 & O2).
  cbv zeta. unfold back_trace, third_back. unfold euler_back, second_back. cbn [fst snd]. unfold time_mid. rewrite !time_at_R1, !time_at_R by assumption. nr.
  replace ((IZR t + 1) * dt) with (lo + dt) by (unfold lo; ring). fold lo. set (x := X (lo + dt)) in *. set (y := Y (lo + dt)) in *.
  replace (x - Velx F x y (lo + dt) Tp * dt) with (x - dt * Velx F x y (lo + dt) Tp) by ring.
  replace (y - Vely F x y (lo + dt) Tp * dt) with (y - dt * Vely F x y (lo + dt) Tp) by ring.
  set (xa := x - dt * Velx F x y (lo + dt) Tp) in *. set (ya := y - dt * Vely F x y (lo + dt) Tp) in *.
  replace (x - dt / 2 * (1 / 2 * Velx F x y (lo + dt) Tp + 1 / 2 * Velx F xa ya lo Tp)) with (x - dt / 4 * (Velx F x y (lo + dt) Tp + Velx F xa ya lo Tp)) by field.
  replace (y - dt / 2 * (1 / 2 * Vely F x y (lo + dt) Tp + 1 / 2 * Vely F xa ya lo Tp)) with (y - dt / 4 * (Vely F x y (lo + dt) Tp + Vely F xa ya lo Tp)) by field.
  set (xb := x - dt / 4 * _) in *. set (yb := y - dt / 4 * _) in *.
  split; [eapply Rle_trans; [|exact O1]|eapply Rle_trans; [|exact O2]]; right; f_equal; field.
Qed.
Lemma euler_order F Tp t dt X Y M2 : step_number t -> 0 <= dt ->
  let lo := IZR t * dt in let hi := (IZR t + 1) * dt in
  follows F Tp lo hi X Y -> bounded2 lo hi X M2 -> bounded2 lo hi Y M2 ->
  let p := back_trace F false (X hi) (Y hi) t dt Tp in
  Rabs (X lo - fst p) <= M2 / 2 * dt ^ 2 /\ Rabs (Y lo - snd p) <= M2 / 2 * dt ^ 2.
Proof.
  intros Ht Hdt lo hi HX BX BY. cbv zeta. unfold back_trace, euler_back. cbn [fst snd]. rewrite !time_at_R1 by assumption. nr. fold hi.
  assert (K : forall Z w, bounded2 lo hi Z M2 -> (forall s, lo <= s <= hi -> derivable_pt_lim Z s (w s)) -> Rabs (Z lo - (Z hi - w hi * dt)) <= M2 / 2 * dt ^ 2).
  { intros Z w (Z1 & Z2 & (D1 & D2 & _) & B) HW. assert (lo <= hi) by (unfold lo, hi; lra).
    assert (E : w hi = Z1 hi) by (eapply uniqueness_limite; [apply HW; lra|apply D1; lra]). rewrite E.
    assert (RD : derivs 0 dt (fun s => Z (hi - s)) [(fun s => - Z1 (hi - s)); (fun s => Z2 (hi - s))]).
    { repeat split; intros s Hs; [apply rev_d, D1|apply rev_d', D2]; unfold lo, hi in *; lra. }
    pose proof (taylor1 dt M2 _ _ _ RD (fun s Hs => B (hi - s) ltac:(unfold lo, hi in *; lra)) dt ltac:(lra)) as T. cbv beta in T. rewrite !Rminus_0_r in T.
    replace (hi - dt) with lo in T by (unfold lo, hi; ring). eapply Rle_trans; [|exact T]. right. f_equal. ring. }
  split; [apply (K X (fun s => Velx F (X s) (Y s) s Tp))|apply (K Y (fun s => Vely F (X s) (Y s) s Tp))]; auto; intros; apply HX; assumption.
Qed.
