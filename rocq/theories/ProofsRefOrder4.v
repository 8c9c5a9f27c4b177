(** The order of the linearised back-trace: the columns of SuperConsistentScheme compared with the linearised flow. *)
From Coq Require Import ZArith List Reals Lra Lia.
From Coquelicot Require Import Coquelicot.
From Verif Require Import Base Num ModelVec SpecGradient ModelRefMath SpecRef SpecRefOrder SpecRefSolve
  ProofsTaylor ProofsRefMath ProofsRefHermite ProofsRefTrace ProofsRefOrder ProofsRefSmooth ProofsRefScale ProofsRefStepErr ProofsPicard ProofsRefSolve ProofsRefFlowGrad ProofsRefJet ProofsRefVariation.
Import ListNotations.
Open Scope R_scope.

(** distances of the stages from one component of an exact solution with derivative f *)
Lemma stages lo h Z f V M2 M3 M4 k2 e : 0 <= h -> bounded4 lo (lo + h) Z V M2 M3 M4 -> (forall s, lo <= s <= lo + h -> derivable_pt_lim Z s (f s)) -> Rabs (f lo - k2) <= e ->
  let hi := lo + h in let tm := lo + h / 2 in let za := Z hi - h * f hi in let zb := Z hi - h / 4 * (f hi + k2) in
  Rabs (Z lo - za) <= M2 / 2 * h ^ 2 /\ Rabs (Z tm - zb) <= 3 / 8 * M2 * h ^ 2 + h / 4 * e /\ Rabs ((Z lo - za) + 4 * (Z tm - zb)) <= 3 / 4 * M3 * h ^ 3 + h * e /\
  Rabs (Z lo - (Z hi - h / 6 * (f hi + f lo + 4 * f tm))) <= h ^ 4 / 12 * M4.
Proof.
  intros Hh (Z1 & Z2 & Z3 & Z4 & D & B) HW He hi tm za zb.
  assert (E : forall s, lo <= s <= hi -> Z1 s = f s).
  { intros s Hs. eapply uniqueness_limite; [apply (proj1 D); exact Hs|apply HW; exact Hs]. }
  pose proof (path_taylor lo h Z Z1 Z2 Z3 Z4 V M2 M3 M4 D B h ltac:(lra)) as T. pose proof (path_taylor lo h Z Z1 Z2 Z3 Z4 V M2 M3 M4 D B (h / 2) ltac:(lra)) as S. cbv zeta in T, S.
  fold hi in T, S. replace (hi - h) with lo in T by (unfold hi; ring). replace (hi - h / 2) with tm in S by (unfold hi, tm; field).
  destruct T as (_ & T1 & T2 & _ & T3 & T4 & _). destruct S as (_ & S1 & S2 & _).
  pose proof (path_simpson lo h Z Z1 Z2 Z3 Z4 V M2 M3 M4 Hh D B) as SI. fold hi tm in SI.
  assert (Il : lo <= lo <= hi) by (unfold hi; lra). assert (Ih : lo <= hi <= hi) by (unfold hi; lra). assert (Im : lo <= tm <= hi) by (unfold hi, tm; lra).
  rewrite (E lo Il), (E hi Ih), (E tm Im) in *. unfold za, zb.
  set (z2 := Z2 hi) in *. clearbody z2. set (fl := f lo) in *. set (fh := f hi) in *. set (fm := f tm) in *. clearbody fl fh fm hi tm za zb.
  set (zl := Z lo) in *. set (zh := Z hi) in *. set (zm := Z tm) in *. clearbody zl zh zm. clear D B HW E.
  assert (He' : Rabs (h / 4 * (fl - k2)) <= h / 4 * e) by (rewrite Rabs_mult, (Rabs_pos_eq (h / 4)) by lra; apply Rmult_le_compat_l; lra).
  assert (Q1 : Rabs (h / 4 * (fl - fh)) <= h / 4 * (M2 * h)) by (rewrite Rabs_mult, (Rabs_pos_eq (h / 4)) by lra; apply Rmult_le_compat_l; lra).
  assert (Q2 : Rabs (h / 4 * (fl - (fh - z2 * h))) <= h / 4 * (M3 / 2 * h ^ 2)) by (rewrite Rabs_mult, (Rabs_pos_eq (h / 4)) by lra; apply Rmult_le_compat_l; lra).
  apply abs_both in He'. apply abs_both in Q1. apply abs_both in Q2. apply abs_both in T1. apply abs_both in T2. apply abs_both in S1. apply abs_both in S2.
  split; [apply Rabs_le; lra|]. split; [apply Rabs_le; lra|]. split; [|exact SI]. apply Rabs_le; lra.
Qed.

(** one product of a velocity gradient and a component of the linearised flow, at the exact and at the numerical stage *)
Lemma half L g h T aL a1 a0 wl wa i : 0 <= L -> 0 <= h -> 2 * L <= g ->
  Rabs aL <= L -> Rabs (aL - a0) <= L * g * h -> Rabs (aL - a1 - T) <= L ^ 2 * g ^ 2 * h ^ 3 -> Rabs T <= L ^ 2 * g * h ^ 2 -> Rabs (aL - a1) <= L ^ 2 * g * h ^ 2 ->
  Rabs (wl - wa) <= 4 * L * g * h ^ 2 -> Rabs wa <= 3 / 2 -> Rabs (wa - i) <= 2 * L * h ->
  Rabs (aL * wl - a1 * wa - (a0 * (wl - wa) + T * i)) <= 13 / 2 * (L ^ 2 * g ^ 2 * h ^ 3) /\ Rabs (aL * wl - a1 * wa) <= 11 / 2 * (L ^ 2 * g * h ^ 2).
Proof.
  intros PL Ph HLg H1 H2 H3 H4 H5 H6 H7 H8. assert (Pg : 0 <= g) by lra.
  split.
  - replace (aL * wl - a1 * wa - (a0 * (wl - wa) + T * i)) with ((aL - a0) * (wl - wa) + (aL - a1 - T) * wa + T * (wa - i)) by ring.
    pose proof (mul_le _ _ _ _ H2 H6) as Q1. pose proof (mul_le _ _ _ _ H3 H7) as Q2. pose proof (mul_le _ _ _ _ H4 H8) as Q3.
    assert (P : 0 <= L ^ 2 * g * h ^ 3) by (apply Rmult_le_pos; [apply Rmult_le_pos; [apply pow_le; exact PL|exact Pg]|apply pow_le; exact Ph]).
    pose proof (Rmult_le_compat_l _ _ _ P HLg) as Q4.
    apply abs_both in Q1. apply abs_both in Q2. apply abs_both in Q3. apply Rabs_le. lra.
  - replace (aL * wl - a1 * wa) with (aL * (wl - wa) + (aL - a1) * wa) by ring.
    pose proof (mul_le _ _ _ _ H1 H6) as Q1. pose proof (mul_le _ _ _ _ H5 H7) as Q2. apply abs_both in Q1. apply abs_both in Q2. apply Rabs_le. lra.
Qed.

Section Column.
Variables (F : flow R) (Tp x y lo h V K i j : R) (X Y W Z : R -> R).
Notation hi := (lo + h).
Notation tm := (lo + h / 2).
Hypothesis Hh : 0 <= h.
Hypothesis HK : 0 <= K.
Hypothesis HL : V * K * h <= 1 / 4.
Hypothesis HV : graded_velocity 4 V K F Tp.
Hypothesis HG : true_gradients F Tp.
Hypothesis HX : follows F Tp lo hi X Y.
Hypothesis EX : X hi = x.
Hypothesis EY : Y hi = y.
Hypothesis HW : varies F Tp lo hi X Y W Z i j.
Hypothesis Hi : Rabs i <= 1.
Hypothesis Hj : Rabs j <= 1.
Let L := V * K.
Let g := K * (1 + 2 * V).
Let u p q s := Velx F p q s Tp.
Let v p q s := Vely F p q s Tp.
Let ux p q s := gradUx F p q s Tp.
Let uy p q s := gradUy F p q s Tp.
Let vx p q s := gradVx F p q s Tp.
Let vy p q s := gradVy F p q s Tp.
Let xa := x - h * u x y hi.
Let ya := y - h * v x y hi.
Let xb := x - h / 4 * (u x y hi + u xa ya lo).
Let yb := y - h / 4 * (v x y hi + v xa ya lo).
Let wa := i - h * (ux x y hi * i + uy x y hi * j).
Let za := j - h * (vx x y hi * i + vy x y hi * j).
Let wb := i - h / 4 * (ux x y hi * i + uy x y hi * j + (ux xa ya lo * wa + uy xa ya lo * za)).
Let zb := j - h / 4 * (vx x y hi * i + vy x y hi * j + (vx xa ya lo * wa + vy xa ya lo * za)).

Lemma cV : 0 <= V.
Proof. eapply Rle_trans; [apply Rabs_pos|exact (graded_bounded _ _ _ _ (proj1 HV) 0 0 0)]. Qed.
Lemma cL : 0 <= L.
Proof. apply Rmult_le_pos; [exact cV|exact HK]. Qed.
Lemma cg : 0 <= g /\ 2 * L <= g.
Proof. pose proof cV. split; [unfold g; apply Rmult_le_pos; lra|unfold L, g; lra]. Qed.

(** the gradients as graded functions *)
Lemma grads : graded3 3 L K ux /\ graded3 3 L K uy /\ graded3 3 L K vx /\ graded3 3 L K vy.
Proof.
  assert (G : forall w wx wy, graded3 4 V K w -> (forall x y s, differentiable_pt_lim (fun x y => w x y s) x y (wx x y s) (wy x y s)) -> graded3 3 L K wx /\ graded3 3 L K wy).
  { intros w wx wy (_ & ax & ay & a_s & D & Gx & Gy & _) HD.
    assert (E : forall x y s, ax x y s = wx x y s /\ ay x y s = wy x y s) by (intros; eapply smooth_gradient; [exact D|apply HD]).
    split; [apply (graded_ext 3 L K ax); [intros; apply E|exact Gx]|apply (graded_ext 3 L K ay); [intros; apply E|exact Gy]]. }
  destruct HV as (Gu & Gv). destruct (G _ ux uy Gu ltac:(intros p q s; apply (HG p q s))). destruct (G _ vx vy Gv ltac:(intros p q s; apply (HG p q s))). auto.
Qed.

(** everything happens within V h of the node *)
Lemma path_near s : lo <= s <= hi -> Rabs (X s - x) <= V * h /\ Rabs (Y s - y) <= V * h.
Proof.
  intros Hs. pose proof cV as PV. destruct HV as (Gu & Gv).
  pose proof (moved lo hi X _ V s (fun s Hs => proj1 (HX s Hs)) (fun s _ => graded_bounded _ _ _ _ Gu _ _ _) Hs) as Q1. pose proof (moved lo hi Y _ V s (fun s Hs => proj2 (HX s Hs)) (fun s _ => graded_bounded _ _ _ _ Gv _ _ _) Hs) as Q2.
  rewrite EX in Q1. rewrite EY in Q2. assert (V * (hi - s) <= V * h) by (apply Rmult_le_compat_l; lra). lra.
Qed.
Lemma move_le k z t : Rabs k <= V -> 0 <= t <= h -> Rabs (z - t * k - z) <= V * h.
Proof.
  intros Hk Ht. replace (z - t * k - z) with (- (t * k)) by ring. rewrite Rabs_Ropp, Rabs_mult, (Rabs_pos_eq t), Rmult_comm by lra.
  apply Rmult_le_compat; try lra. apply Rabs_pos.
Qed.
Lemma stages_near : (Rabs (xa - x) <= V * h /\ Rabs (ya - y) <= V * h) /\ (Rabs (xb - x) <= V * h /\ Rabs (yb - y) <= V * h).
Proof.
  destruct HV as (Gu & Gv). pose proof (graded_bounded _ _ _ _ Gu) as Bu. pose proof (graded_bounded _ _ _ _ Gv) as Bv. cbv beta in Bu, Bv.
  split; [split; apply move_le; [apply Bu|lra|apply Bv|lra]|].
  assert (K4 : forall a b z, Rabs a <= V -> Rabs b <= V -> Rabs (z - h / 4 * (a + b) - z) <= V * h).
  { intros a b z Ha Hb. replace (z - h / 4 * (a + b) - z) with (z - h / 2 * ((a + b) / 2) - z) by field. apply move_le; [|lra].
    unfold Rdiv. rewrite Rabs_mult, (Rabs_pos_eq (/ 2)) by lra. pose proof (Rabs_triang a b). lra. }
  split; apply K4; [apply Bu|apply Bu|apply Bv|apply Bv].
Qed.

(** a gradient to second order *)
Let d := V * g * h ^ 2 / 2.
Definition second (f : R -> R -> R -> R) (p q : R) : Prop := forall s p1 q1 p2 q2, lo <= s <= hi ->
  Rabs (p1 - x) <= V * h -> Rabs (q1 - y) <= V * h -> Rabs (p2 - x) <= V * h -> Rabs (q2 - y) <= V * h -> Rabs (p1 - p2) <= d -> Rabs (q1 - q2) <= d ->
  Rabs (f p1 q1 s) <= L /\ Rabs (f p1 q1 s - f x y hi) <= L * g * h /\ Rabs (f p1 q1 s - f p2 q2 s - (p * (p1 - p2) + q * (q1 - q2))) <= L ^ 2 * g ^ 2 * h ^ 3 /\
  Rabs (p * (p1 - p2) + q * (q1 - q2)) <= L ^ 2 * g * h ^ 2 /\ Rabs (f p1 q1 s - f p2 q2 s) <= L ^ 2 * g * h ^ 2.
Lemma seconds f : graded3 3 L K f -> exists p q, second f p q /\ Rabs p <= L * K /\ Rabs q <= L * K.
Proof.
  intros G. pose proof G as (B & fx & fy & fs & D & Gx & Gy & Gs). exists (fx x y hi), (fy x y hi).
  pose proof (graded_bounded _ _ _ _ Gx) as Bx. pose proof (graded_bounded _ _ _ _ Gy) as By.
  split; [|split; auto]. intros s p1 q1 p2 q2 Hs H1 H2 H3 H4 H5 H6.
  assert (T : tame (L * K) (L * K ^ 2) f fx fy) by (apply tame_of; [apply graded_less; exact G|intros; apply (diff3_plane f fx fy fs); exact D]).
  pose proof cV as PV. pose proof cL as PL. assert (PLK : 0 <= L * K) by (apply Rmult_le_pos; assumption).
  assert (Pd : 0 <= d) by (eapply Rle_trans; [apply Rabs_pos|exact H5]).
  assert (E1 : L * K * (d + d) = L ^ 2 * g * h ^ 2) by (unfold d, L; field).
  split; [apply B|]. split; [|split; [|split]].
  - eapply Rle_trans; [eapply graded_lipschitz; exact G|]. replace (L * g * h) with (L * K * ((1 + 2 * V) * h)) by (unfold g; ring). apply Rmult_le_compat_l; [exact PLK|].
    assert (Rabs (s - hi) <= h) by (apply Rabs_le; lra). lra.
  - destruct (tame_diff _ _ f fx fy p2 q2 p1 q1 s T) as (t & Ht & ->).
    assert (R1 : Rabs (p2 + (p1 - p2) * t - x) <= V * h) by (rewrite (Rmult_comm (p1 - p2)); apply between; assumption).
    assert (R2 : Rabs (q2 + (q1 - q2) * t - y) <= V * h) by (rewrite (Rmult_comm (q1 - q2)); apply between; assumption).
    set (P := p2 + (p1 - p2) * t) in *. set (Q := q2 + (q1 - q2) * t) in *. destruct T as (_ & _ & TN). destruct (TN P Q s x y hi) as (N1 & N2).
    assert (S : L * K ^ 2 * (Rabs (P - x) + Rabs (Q - y) + Rabs (s - hi)) <= L * K ^ 2 * ((1 + 2 * V) * h)).
    { apply Rmult_le_compat_l; [apply Rmult_le_pos; [exact PL|apply pow_le; exact HK]|]. assert (Rabs (s - hi) <= h) by (apply Rabs_le; lra). lra. }
    replace (fx P Q s * (p1 - p2) + fy P Q s * (q1 - q2) - (fx x y hi * (p1 - p2) + fy x y hi * (q1 - q2))) with ((fx P Q s - fx x y hi) * (p1 - p2) + (fy P Q s - fy x y hi) * (q1 - q2)) by ring.
    eapply Rle_trans; [apply Rabs_triang|]. replace (L ^ 2 * g ^ 2 * h ^ 3) with (L * K ^ 2 * ((1 + 2 * V) * h) * d + L * K ^ 2 * ((1 + 2 * V) * h) * d) by (unfold d, L, g; field).
    apply Rplus_le_compat; apply mul_le; auto; lra.
  - eapply Rle_trans; [apply Rabs_triang|]. rewrite <- E1, Rmult_plus_distr_l. apply Rplus_le_compat; apply mul_le; auto.
  - eapply Rle_trans; [eapply tame_lip; exact T|]. rewrite <- E1. apply Rmult_le_compat_l; [exact PLK|lra].
Qed.

Lemma fact_pos c n m k : 0 <= c -> 0 <= c * L ^ n * g ^ m * h ^ k.
Proof. intros Hc. pose proof cL. pose proof (proj1 cg). apply Rmult_le_pos; [apply Rmult_le_pos; [apply Rmult_le_pos; [exact Hc|]|]|]; apply pow_le; assumption. Qed.

(** the positions *)
Lemma positions : (Rabs (X lo - xa) <= d /\ Rabs (Y lo - ya) <= d) /\ (Rabs (X tm - xb) <= d /\ Rabs (Y tm - yb) <= d) /\
  (Rabs ((X lo - xa) + 4 * (X tm - xb)) <= 2 * V * g ^ 2 * h ^ 3 /\ Rabs ((Y lo - ya) + 4 * (Y tm - yb)) <= 2 * V * g ^ 2 * h ^ 3).
Proof.
  pose proof cV as PV. pose proof cL as PL. destruct cg as (Pg & HLg).
  assert (G3 : graded3 3 V K u /\ graded3 3 V K v) by (destruct HV; split; apply graded_less; assumption). destruct G3 as (Gu & Gv).
  assert (B4 : forall w Zc, graded3 3 V K w -> (forall s, lo <= s <= hi -> derivable_pt_lim Zc s (w (X s) (Y s) s)) -> bounded4 lo hi Zc V (V * g) (2 * V * g ^ 2) (6 * V * g ^ 3)).
  { intros w Zc Gw DZ. pose proof (jet_on u v V K lo hi X Y PV HK (fun s Hs => proj1 (HX s Hs)) (fun s Hs => proj2 (HX s Hs)) 3 Gu Gv V w PV Gw) as J.
    pose proof (jet_four lo hi g Zc _ V 1 DZ J) as B.
    replace (V * 1 * g) with (V * g) in B by ring. replace (V * g * (1 + 1) * g) with (2 * V * g ^ 2) in B by ring. replace (2 * V * g ^ 2 * (1 + 1 + 1) * g) with (6 * V * g ^ 3) in B by ring. exact B. }
  pose proof (B4 u X Gu (fun s Hs => proj1 (HX s Hs))) as BX. pose proof (B4 v Y Gv (fun s Hs => proj2 (HX s Hs))) as BY.
  assert (T : forall w, graded3 3 V K w -> forall e, Rabs (X lo - xa) <= e -> Rabs (Y lo - ya) <= e -> Rabs (w (X lo) (Y lo) lo - w xa ya lo) <= L * (e + e)).
  { intros w Gw e h1 h2. eapply Rle_trans; [eapply graded_lipschitz; exact Gw|]. fold L. rewrite Rminus_eq_0, Rabs_R0. apply Rmult_le_compat_l; lra. }
  destruct (stages lo h X _ _ _ _ _ (u (X lo) (Y lo) lo) 0 Hh BX (fun s Hs => proj1 (HX s Hs)) ltac:(right; rewrite Rminus_eq_0; apply Rabs_R0)) as (A1 & _).
  destruct (stages lo h Y _ _ _ _ _ (v (X lo) (Y lo) lo) 0 Hh BY (fun s Hs => proj2 (HX s Hs)) ltac:(right; rewrite Rminus_eq_0; apply Rabs_R0)) as (A2 & _).
  cbv beta in A1, A2. rewrite EX, EY in A1, A2. change (x - h * Velx F x y hi Tp) with xa in A1. change (y - h * Vely F x y hi Tp) with ya in A2.
  replace (V * g / 2 * h ^ 2) with d in A1, A2 by (unfold d; field).
  destruct (stages lo h X _ _ _ _ _ (u xa ya lo) _ Hh BX (fun s Hs => proj1 (HX s Hs)) (T u Gu d A1 A2)) as (_ & C1 & D1 & _).
  destruct (stages lo h Y _ _ _ _ _ (v xa ya lo) _ Hh BY (fun s Hs => proj2 (HX s Hs)) (T v Gv d A1 A2)) as (_ & C2 & D2 & _).
  cbv beta in C1, D1, C2, D2. rewrite EX, EY in C1, D1, C2, D2.
  change (x - h / 4 * (Velx F x y hi Tp + u xa ya lo)) with xb in C1, D1. change (y - h / 4 * (Vely F x y hi Tp + v xa ya lo)) with yb in C2, D2.
  change (x - h * Velx F x y hi Tp) with xa in D1. change (y - h * Vely F x y hi Tp) with ya in D2.
  assert (P1 : 0 <= V * g * h ^ 2) by (apply Rmult_le_pos; [apply Rmult_le_pos; assumption|apply pow2_ge_0]).
  assert (Q1 : 3 / 8 * (V * g) * h ^ 2 + h / 4 * (L * (d + d)) <= d).
  { replace (3 / 8 * (V * g) * h ^ 2 + h / 4 * (L * (d + d))) with (3 / 8 * (V * g * h ^ 2) + 1 / 4 * (V * g * h ^ 2 * (L * h))) by (unfold d; field).
    pose proof (Rmult_le_compat_l _ _ _ P1 HL) as Q. fold L in Q. unfold d. lra. }
  assert (Q2 : 3 / 4 * (2 * V * g ^ 2) * h ^ 3 + h * (L * (d + d)) <= 2 * V * g ^ 2 * h ^ 3).
  { replace (h * (L * (d + d))) with (V * g * h ^ 3 * L) by (unfold d; field).
    assert (P2 : 0 <= V * g * h ^ 3) by (apply Rmult_le_pos; [apply Rmult_le_pos; assumption|apply pow_le; exact Hh]). pose proof (Rmult_le_compat_l _ _ _ P2 HLg). lra. }
  split; [auto|]. split; split; lra.
Qed.

(** the linearised flow and its derivatives *)
Notation on f := (fun s => f (X s) (Y s) s).
Notation rate f1 f2 := (fun s => f1 (X s) (Y s) s * W s + f2 (X s) (Y s) s * Z s).
Lemma on_jet f : graded3 3 L K f -> jet lo hi g 3 L 1 (on f).
Proof.
  intros Gf. assert (G3 : graded3 3 V K u /\ graded3 3 V K v) by (destruct HV; split; apply graded_less; assumption).
  exact (jet_on u v V K lo hi X Y cV HK (fun s Hs => proj1 (HX s Hs)) (fun s Hs => proj2 (HX s Hs)) 3 (proj1 G3) (proj2 G3) L f cL Gf).
Qed.
Lemma rate_jet n f1 f2 : jet lo hi g n L 1 (on f1) -> jet lo hi g n L 1 (on f2) -> jet lo hi g n 2 1 W -> jet lo hi g n 2 1 Z -> jet lo hi g n (4 * L) 2 (rate f1 f2).
Proof.
  intros J1 J2 JW JZ. pose proof (jet_add lo hi g n _ _ _ _ _ (jet_mul lo hi g n _ _ _ _ _ _ J1 JW) (jet_mul lo hi g n _ _ _ _ _ _ J2 JZ)) as J.
  replace (L * 2 + L * 2) with (4 * L) in J by ring. replace (1 + 1) with 2 in J by ring. exact J.
Qed.
Lemma WZ_jet n : (n <= 3)%nat -> jet lo hi g n 2 1 W /\ jet lo hi g n 2 1 Z.
Proof.
  destruct grads as (G1 & G2 & G3 & G4). destruct cg as (Pg & HLg). pose proof cL as PL. destruct HW as (_ & _ & H).
  assert (Sub : forall k f, (k <= 3)%nat -> jet lo hi g 3 L 1 f -> jet lo hi g k L 1 f).
  { intros k f Hk J. destruct k as [|[|[|[|k]]]]; try lia; [do 3 apply jet_less in J|do 2 apply jet_less in J|apply jet_less in J|]; exact J. }
  induction n as [|n IH]; intros Hn; [split; (split; [|exact I]); intros s Hs; apply (H s Hs)|].
  destruct (IH ltac:(lia)) as (JW & JZ).
  assert (R1 : jet lo hi g n (2 * 1 * g) (1 + 1) (rate ux uy)).
  { apply (jet_mono lo hi g Pg n (4 * L) 2); [lra|lra|]. apply rate_jet; auto; apply Sub; try lia; apply on_jet; assumption. }
  assert (R2 : jet lo hi g n (2 * 1 * g) (1 + 1) (rate vx vy)).
  { apply (jet_mono lo hi g Pg n (4 * L) 2); [lra|lra|]. apply rate_jet; auto; apply Sub; try lia; apply on_jet; assumption. }
  split; (split; [intros s Hs; apply (H s Hs)|]); [exists (rate ux uy)|exists (rate vx vy)]; (split; [intros s Hs; apply (H s Hs)|assumption]).
Qed.
Lemma rate_four P f1 f2 : graded3 3 L K f1 -> graded3 3 L K f2 -> (forall s, lo <= s <= hi -> derivable_pt_lim P s (rate f1 f2 s)) ->
  bounded4 lo hi P (4 * L) (8 * L * g) (24 * L * g ^ 2) (96 * L * g ^ 3).
Proof.
  intros G1 G2 D. destruct (WZ_jet 3 ltac:(lia)) as (JW & JZ). pose proof (jet_four lo hi g P _ _ _ D (rate_jet 3 f1 f2 (on_jet f1 G1) (on_jet f2 G2) JW JZ)) as B.
  replace (4 * L * 2 * g) with (8 * L * g) in B by ring. replace (8 * L * g * (2 + 1) * g) with (24 * L * g ^ 2) in B by ring. replace (24 * L * g ^ 2 * (2 + 1 + 1) * g) with (96 * L * g ^ 3) in B by ring. exact B.
Qed.

(** sizes of the stages *)
Lemma two_le f1 f2 p q B : Rabs f1 <= L -> Rabs f2 <= L -> Rabs p <= B -> Rabs q <= B -> Rabs (f1 * p + f2 * q) <= 2 * L * B.
Proof. intros A1 A2 A3 A4. eapply Rle_trans; [apply Rabs_triang|]. pose proof (mul_le _ _ _ _ A1 A3). pose proof (mul_le _ _ _ _ A2 A4). lra. Qed.
Lemma stage_sizes : (Rabs (wa - i) <= 2 * L * h /\ Rabs (za - j) <= 2 * L * h /\ Rabs wa <= 3 / 2 /\ Rabs za <= 3 / 2) /\
  (Rabs (wb - i) <= 2 * L * h /\ Rabs (zb - j) <= 2 * L * h /\ Rabs wb <= 3 / 2 /\ Rabs zb <= 3 / 2).
Proof.
  destruct grads as (G1 & G2 & G3 & G4). pose proof (graded_bounded _ _ _ _ G1) as B1. pose proof (graded_bounded _ _ _ _ G2) as B2. pose proof (graded_bounded _ _ _ _ G3) as B3. pose proof (graded_bounded _ _ _ _ G4) as B4.
  pose proof cL as PL. assert (HLh : 2 * L * h <= 1 / 2) by (pose proof HL as Q; fold L in Q; lra). assert (PLh : 0 <= L * h) by (apply Rmult_le_pos; assumption).
  assert (Near : forall z c, Rabs c <= 1 -> Rabs (z - c) <= 2 * L * h -> Rabs z <= 3 / 2).
  { intros z c Hc Hz. replace z with (z - c + c) by ring. eapply Rle_trans; [apply Rabs_triang|]. lra. }
  assert (One : forall c k B t, 0 <= t -> Rabs k <= B -> Rabs (c - t * k - c) <= t * B).
  { intros c k B t Ht Hk. replace (c - t * k - c) with (- (t * k)) by ring. rewrite Rabs_Ropp, Rabs_mult, (Rabs_pos_eq t Ht). apply Rmult_le_compat_l; assumption. }
  pose proof (two_le _ _ _ _ 1 (B1 x y hi) (B2 x y hi) Hi Hj) as K1. pose proof (two_le _ _ _ _ 1 (B3 x y hi) (B4 x y hi) Hi Hj) as K2.
  assert (A1 : Rabs (wa - i) <= 2 * L * h) by (unfold wa; eapply Rle_trans; [apply (One _ _ _ _ Hh K1)|right; ring]).
  assert (A2 : Rabs (za - j) <= 2 * L * h) by (unfold za; eapply Rle_trans; [apply (One _ _ _ _ Hh K2)|right; ring]).
  pose proof (Near _ _ Hi A1) as A3. pose proof (Near _ _ Hj A2) as A4.
  pose proof (two_le _ _ _ _ (3 / 2) (B1 xa ya lo) (B2 xa ya lo) A3 A4) as K3. pose proof (two_le _ _ _ _ (3 / 2) (B3 xa ya lo) (B4 xa ya lo) A3 A4) as K4.
  assert (Add : forall a b, Rabs a <= 2 * L * 1 -> Rabs b <= 2 * L * (3 / 2) -> Rabs (a + b) <= 5 * L) by (intros a b Ha Hb; eapply Rle_trans; [apply Rabs_triang|]; lra).
  assert (C1 : Rabs (wb - i) <= 2 * L * h) by (unfold wb; eapply Rle_trans; [apply (One _ _ (5 * L) (h / 4) ltac:(lra) (Add _ _ K1 K3))|lra]).
  assert (C2 : Rabs (zb - j) <= 2 * L * h) by (unfold zb; eapply Rle_trans; [apply (One _ _ (5 * L) (h / 4) ltac:(lra) (Add _ _ K2 K4))|lra]).
  repeat split; try assumption; [exact (Near _ _ Hi C1)|exact (Near _ _ Hj C2)].
Qed.

(** the first stage *)
Lemma rate_hi f1 f2 : rate f1 f2 hi = f1 x y hi * i + f2 x y hi * j.
Proof. destruct HW as (EW & EZ & _). cbv beta. rewrite EX, EY, EW, EZ. reflexivity. Qed.
Lemma first_gap P f1 f2 : graded3 3 L K f1 -> graded3 3 L K f2 -> (forall s, lo <= s <= hi -> derivable_pt_lim P s (rate f1 f2 s)) ->
  Rabs (P lo - (P hi - h * (f1 x y hi * i + f2 x y hi * j))) <= 4 * L * g * h ^ 2.
Proof.
  intros G1 G2 D. destruct (stages lo h P _ _ _ _ _ (rate f1 f2 lo) 0 Hh (rate_four P f1 f2 G1 G2 D) D ltac:(right; rewrite Rminus_eq_0; apply Rabs_R0)) as (A & _).
  cbv zeta in A. rewrite (rate_hi f1 f2) in A. lra.
Qed.
Lemma WZ_first : Rabs (W lo - wa) <= 4 * L * g * h ^ 2 /\ Rabs (Z lo - za) <= 4 * L * g * h ^ 2.
Proof.
  destruct grads as (G1 & G2 & G3 & G4). destruct HW as (EW & EZ & H).
  pose proof (first_gap W ux uy G1 G2 (fun s Hs => proj1 (H s Hs))) as A. pose proof (first_gap Z vx vy G3 G4 (fun s Hs => proj1 (proj2 (H s Hs)))) as B.
  rewrite EW in A. rewrite EZ in B. split; assumption.
Qed.
Lemma inside_lo : lo <= lo <= hi. Proof. lra. Qed.
Lemma inside_tm : lo <= tm <= hi. Proof. lra. Qed.
Lemma first_rate f1 f2 p1 q1 p2 q2 : second f1 p1 q1 -> second f2 p2 q2 ->
  let T1 := p1 * (X lo - xa) + q1 * (Y lo - ya) in let T2 := p2 * (X lo - xa) + q2 * (Y lo - ya) in
  Rabs (rate f1 f2 lo - (f1 xa ya lo * wa + f2 xa ya lo * za)) <= 11 * (L ^ 2 * g * h ^ 2) /\
  Rabs (rate f1 f2 lo - (f1 xa ya lo * wa + f2 xa ya lo * za) - (f1 x y hi * (W lo - wa) + T1 * i + (f2 x y hi * (Z lo - za) + T2 * j))) <= 13 * (L ^ 2 * g ^ 2 * h ^ 3).
Proof.
  intros S1 S2 T1 T2. destruct positions as ((P1 & P2) & _). destruct stages_near as ((N1 & N2) & _). destruct (path_near lo inside_lo) as (N3 & N4). destruct stage_sizes as ((Z1 & Z2 & Z3 & Z4) & _). destruct WZ_first as (W1 & W2).
  destruct (S1 lo (X lo) (Y lo) xa ya inside_lo N3 N4 N1 N2 P1 P2) as (A1 & A2 & A3 & A4 & A5). destruct (S2 lo (X lo) (Y lo) xa ya inside_lo N3 N4 N1 N2 P1 P2) as (B1 & B2 & B3 & B4 & B5).
  destruct (half L g h _ _ _ _ _ _ i cL Hh (proj2 cg) A1 A2 A3 A4 A5 W1 Z3 Z1) as (H1 & H2). destruct (half L g h _ _ _ _ _ _ j cL Hh (proj2 cg) B1 B2 B3 B4 B5 W2 Z4 Z2) as (H3 & H4).
  unfold T1, T2. apply abs_both in H1. apply abs_both in H2. apply abs_both in H3. apply abs_both in H4. split; apply Rabs_le; lra.
Qed.
(** the middle stage *)
Lemma middle_gap P f1 f2 : graded3 3 L K f1 -> graded3 3 L K f2 -> (forall s, lo <= s <= hi -> derivable_pt_lim P s (rate f1 f2 s)) ->
  let k := f1 x y hi * i + f2 x y hi * j in let k2 := f1 xa ya lo * wa + f2 xa ya lo * za in let pb := P hi - h / 4 * (k + k2) in
  Rabs (P tm - pb) <= 4 * L * g * h ^ 2 /\ Rabs ((P lo - (P hi - h * k)) + 4 * (P tm - pb)) <= 24 * L * g ^ 2 * h ^ 3.
Proof.
  intros G1 G2 D k k2 pb. destruct (seconds f1 G1) as (p1 & q1 & S1 & _). destruct (seconds f2 G2) as (p2 & q2 & S2 & _). destruct (first_rate f1 f2 p1 q1 p2 q2 S1 S2) as (He & _).
  destruct (stages lo h P _ _ _ _ _ k2 _ Hh (rate_four P f1 f2 G1 G2 D) D He) as (_ & B & C & _). cbv zeta in B, C. rewrite (rate_hi f1 f2) in B, C. fold k in B, C. fold pb in B, C.
  destruct cg as (Pg & HLg). pose proof cL as PL.
  assert (P1 : 0 <= L * g * h ^ 2) by (apply Rmult_le_pos; [apply Rmult_le_pos; assumption|apply pow2_ge_0]).
  assert (P2 : 0 <= L * g * h ^ 3) by (apply Rmult_le_pos; [apply Rmult_le_pos; assumption|apply pow_le; exact Hh]).
  pose proof (Rmult_le_compat_l _ _ _ P1 HL) as Q1. fold L in Q1. pose proof (Rmult_le_compat_l _ _ _ P2 HLg) as Q2. pose proof (Rmult_le_pos _ _ P2 Pg) as P3. split; lra.
Qed.
Lemma WZ_middle : (Rabs (W tm - wb) <= 4 * L * g * h ^ 2 /\ Rabs (Z tm - zb) <= 4 * L * g * h ^ 2) /\
  (Rabs ((W lo - wa) + 4 * (W tm - wb)) <= 24 * L * g ^ 2 * h ^ 3 /\ Rabs ((Z lo - za) + 4 * (Z tm - zb)) <= 24 * L * g ^ 2 * h ^ 3).
Proof.
  destruct grads as (G1 & G2 & G3 & G4). destruct HW as (EW & EZ & H).
  pose proof (middle_gap W ux uy G1 G2 (fun s Hs => proj1 (H s Hs))) as A. pose proof (middle_gap Z vx vy G3 G4 (fun s Hs => proj1 (proj2 (H s Hs)))) as B.
  cbv zeta in A, B. rewrite EW in A. rewrite EZ in B. destruct A as (A1 & A2), B as (B1 & B2). split; split; assumption.
Qed.
Lemma middle_rate f1 f2 p1 q1 p2 q2 : second f1 p1 q1 -> second f2 p2 q2 ->
  let T1 := p1 * (X tm - xb) + q1 * (Y tm - yb) in let T2 := p2 * (X tm - xb) + q2 * (Y tm - yb) in
  Rabs (rate f1 f2 tm - (f1 xb yb tm * wb + f2 xb yb tm * zb) - (f1 x y hi * (W tm - wb) + T1 * i + (f2 x y hi * (Z tm - zb) + T2 * j))) <= 13 * (L ^ 2 * g ^ 2 * h ^ 3).
Proof.
  intros S1 S2 T1 T2. destruct positions as (_ & (P1 & P2) & _). destruct stages_near as (_ & (N1 & N2)). destruct (path_near tm inside_tm) as (N3 & N4). destruct stage_sizes as (_ & (Z1 & Z2 & Z3 & Z4)). destruct WZ_middle as ((W1 & W2) & _).
  destruct (S1 tm (X tm) (Y tm) xb yb inside_tm N3 N4 N1 N2 P1 P2) as (A1 & A2 & A3 & A4 & A5). destruct (S2 tm (X tm) (Y tm) xb yb inside_tm N3 N4 N1 N2 P1 P2) as (B1 & B2 & B3 & B4 & B5).
  destruct (half L g h _ _ _ _ _ _ i cL Hh (proj2 cg) A1 A2 A3 A4 A5 W1 Z3 Z1) as (H1 & _). destruct (half L g h _ _ _ _ _ _ j cL Hh (proj2 cg) B1 B2 B3 B4 B5 W2 Z4 Z2) as (H3 & _).
  unfold T1, T2. apply abs_both in H1. apply abs_both in H3. apply Rabs_le; lra.
Qed.

(** the third-order step of one component of the linearised flow *)
Lemma component P f1 f2 : graded3 3 L K f1 -> graded3 3 L K f2 -> (forall s, lo <= s <= hi -> derivable_pt_lim P s (rate f1 f2 s)) ->
  Rabs (P lo - (P hi - h / 6 * (f1 x y hi * i + f2 x y hi * j + (f1 xa ya lo * wa + f2 xa ya lo * za) + 4 * (f1 xb yb tm * wb + f2 xb yb tm * zb)))) <= 20 * (L * g ^ 3 * h ^ 4).
Proof.
  intros G1 G2 D. destruct (seconds f1 G1) as (p1 & q1 & S1 & U1 & U2). destruct (seconds f2 G2) as (p2 & q2 & S2 & U3 & U4).
  destruct (first_rate f1 f2 p1 q1 p2 q2 S1 S2) as (He & E1). pose proof (middle_rate f1 f2 p1 q1 p2 q2 S1 S2) as E2. cbv zeta in E1, E2.
  destruct (stages lo h P _ _ _ _ _ _ _ Hh (rate_four P f1 f2 G1 G2 D) D He) as (_ & _ & _ & SI). cbv zeta in SI. rewrite (rate_hi f1 f2) in SI.
  destruct positions as (_ & _ & (X4 & Y4)). destruct WZ_middle as (_ & (W4 & Z4)). destruct cg as (Pg & HLg). pose proof cL as PL.
  pose proof (graded_bounded _ _ _ _ G1 x y hi) as F1. pose proof (graded_bounded _ _ _ _ G2 x y hi) as F2.
  pose proof (mul_le _ _ _ _ F1 W4) as M1. pose proof (mul_le _ _ _ _ F2 Z4) as M2.
  pose proof (mul_le _ _ _ _ (mul_le _ _ _ _ U1 X4) Hi) as M3. pose proof (mul_le _ _ _ _ (mul_le _ _ _ _ U2 Y4) Hi) as M4.
  pose proof (mul_le _ _ _ _ (mul_le _ _ _ _ U3 X4) Hj) as M5. pose proof (mul_le _ _ _ _ (mul_le _ _ _ _ U4 Y4) Hj) as M6.
  replace (L * K * (2 * V * g ^ 2 * h ^ 3) * 1) with (2 * (L ^ 2 * g ^ 2 * h ^ 3)) in M3, M4, M5, M6 by (unfold L; ring).
  replace (L * (24 * L * g ^ 2 * h ^ 3)) with (24 * (L ^ 2 * g ^ 2 * h ^ 3)) in M1, M2 by ring.
  set (rl := rate f1 f2 lo) in *. set (rm := rate f1 f2 tm) in *. set (k := f1 x y hi * i + f2 x y hi * j) in *. set (k2 := f1 xa ya lo * wa + f2 xa ya lo * za) in *. set (k3 := f1 xb yb tm * wb + f2 xb yb tm * zb) in *.
  assert (S : Rabs (rl - k2 + 4 * (rm - k3)) <= 121 * (L ^ 2 * g ^ 2 * h ^ 3)).
  { clearbody rl rm k2 k3. clear - E1 E2 M1 M2 M3 M4 M5 M6.
    apply abs_both in E1. apply abs_both in E2. apply abs_both in M1. apply abs_both in M2. apply abs_both in M3. apply abs_both in M4. apply abs_both in M5. apply abs_both in M6. apply Rabs_le. lra. }
  assert (S' : Rabs (h / 6 * (rl - k2 + 4 * (rm - k3))) <= h / 6 * (121 * (L ^ 2 * g ^ 2 * h ^ 3))) by (rewrite Rabs_mult, (Rabs_pos_eq (h / 6)) by lra; apply Rmult_le_compat_l; lra).
  assert (P4 : 0 <= L * g ^ 2 * h ^ 4) by (apply Rmult_le_pos; [apply Rmult_le_pos; [exact PL|apply pow2_ge_0]|apply pow_le; exact Hh]).
  pose proof (Rmult_le_compat_l _ _ _ P4 HLg) as Q4.
  clearbody rl rm k k2 k3. clear - SI S' Q4 P4. apply abs_both in SI. apply abs_both in S'. apply Rabs_le. lra.
Qed.

(** one column of the linearised scheme *)
Lemma column_order : Rabs (W lo - (i - h / 6 * (ux x y hi * i + uy x y hi * j + (ux xa ya lo * wa + uy xa ya lo * za) + 4 * (ux xb yb tm * wb + uy xb yb tm * zb)))) <= 20 * (L * g ^ 3 * h ^ 4) /\
  Rabs (Z lo - (j - h / 6 * (vx x y hi * i + vy x y hi * j + (vx xa ya lo * wa + vy xa ya lo * za) + 4 * (vx xb yb tm * wb + vy xb yb tm * zb)))) <= 20 * (L * g ^ 3 * h ^ 4).
Proof.
  destruct grads as (G1 & G2 & G3 & G4). destruct HW as (EW & EZ & H).
  pose proof (component W ux uy G1 G2 (fun s Hs => proj1 (H s Hs))) as A. pose proof (component Z vx vy G3 G4 (fun s Hs => proj1 (proj2 (H s Hs)))) as B.
  rewrite EW in A. rewrite EZ in B. split; assumption.
Qed.
End Column.

(** the two columns computed by SuperConsistentScheme *)
Lemma columns_are F Tp x y t dt : step_number t ->
  let lo := IZR t * dt in let hi := lo + dt in let tm := lo + dt / 2 in
  let ux p q s := gradUx F p q s Tp in let uy p q s := gradUy F p q s Tp in let vx p q s := gradVx F p q s Tp in let vy p q s := gradVy F p q s Tp in
  let xa := x - dt * Velx F x y hi Tp in let ya := y - dt * Vely F x y hi Tp in
  let xb := x - dt / 4 * (Velx F x y hi Tp + Velx F xa ya lo Tp) in let yb := y - dt / 4 * (Vely F x y hi Tp + Vely F xa ya lo Tp) in
  let wa i j := i - dt * (ux x y hi * i + uy x y hi * j) in let za i j := j - dt * (vx x y hi * i + vy x y hi * j) in
  let wb i j := i - dt / 4 * (ux x y hi * i + uy x y hi * j + (ux xa ya lo * wa i j + uy xa ya lo * za i j)) in
  let zb i j := j - dt / 4 * (vx x y hi * i + vy x y hi * j + (vx xa ya lo * wa i j + vy xa ya lo * za i j)) in
  let we i j := i - dt / 6 * (ux x y hi * i + uy x y hi * j + (ux xa ya lo * wa i j + uy xa ya lo * za i j) + 4 * (ux xb yb tm * wb i j + uy xb yb tm * zb i j)) in
  let ze i j := j - dt / 6 * (vx x y hi * i + vy x y hi * j + (vx xa ya lo * wa i j + vy xa ya lo * za i j) + 4 * (vx xb yb tm * wb i j + vy xb yb tm * zb i j)) in
  let S a b := SuperConsistentScheme F true x y a b t dt Tp in
  (we 1 0 = fst (S 1 0) /\ ze 1 0 = fst (S 0 1)) /\ (we 0 1 = snd (S 1 0) /\ ze 0 1 = snd (S 0 1)).
Proof.
  intros Ht lo hi tm ux uy vx vy xa ya xb yb wa za wb zb we ze S.
  assert (E1 : time_at (t + 1) dt = hi) by (rewrite time_at_R1 by assumption; unfold hi, lo; ring).
  assert (E0 : time_at t dt = lo) by (rewrite time_at_R by assumption; reflexivity).
  assert (Em : time_mid t dt = tm) by (unfold time_mid; rewrite E0; nr; unfold tm; field).
  unfold S, SuperConsistentScheme. rewrite E1, E0, Em. cbn [fst snd]. nr.
  replace (x - Velx F x y hi Tp * dt) with xa by (unfold xa; ring). replace (y - Vely F x y hi Tp * dt) with ya by (unfold ya; ring).
  replace (x - dt / 2 * (1 / 2 * Velx F x y hi Tp + 1 / 2 * Velx F xa ya lo Tp)) with xb by (unfold xb; field). replace (y - dt / 2 * (1 / 2 * Vely F x y hi Tp + 1 / 2 * Vely F xa ya lo Tp)) with yb by (unfold yb; field).
  unfold we, ze, wb, zb, wa, za, ux, uy, vx, vy. clearbody xa ya xb yb hi tm lo. split; split; field.
Qed.
Lemma super_fourth F Tp V K x y t dt X Y W Z i j : graded_velocity 4 V K F Tp -> true_gradients F Tp -> step_number t -> 0 <= dt -> 0 <= K -> V * K * dt <= 1 / 4 ->
  let lo := IZR t * dt in let hi := (IZR t + 1) * dt in let S a b := SuperConsistentScheme F true x y a b t dt Tp in
  follows F Tp lo hi X Y -> X hi = x -> Y hi = y -> varies F Tp lo hi X Y W Z i j -> forall side : bool, (i, j) = (if side then (1, 0) else (0, 1)) ->
  let col (p : R * R) := if side then fst p else snd p in
  Rabs (W lo - col (S 1 0)) <= 20 * (V * K * (K * (1 + 2 * V)) ^ 3 * dt ^ 4) /\ Rabs (Z lo - col (S 0 1)) <= 20 * (V * K * (K * (1 + 2 * V)) ^ 3 * dt ^ 4).
Proof.
  intros HV HG Ht Hdt HK HL lo hi S HX EX EY HW side Eij col. assert (Eh : hi = lo + dt) by (unfold hi, lo; ring). rewrite Eh in *.
  destruct (columns_are F Tp x y t dt Ht) as ((A1 & A2) & (A3 & A4)).
  destruct side; injection Eij as -> ->.
  - destruct (column_order F Tp x y lo dt V K 1 0 X Y W Z Hdt HK HL HV HG HX EX EY HW ltac:(rewrite Rabs_R1; lra) ltac:(rewrite Rabs_R0; lra)) as (B1 & B2).
    unfold col, S. rewrite <- A1, <- A2. split; assumption.
  - destruct (column_order F Tp x y lo dt V K 0 1 X Y W Z Hdt HK HL HV HG HX EX EY HW ltac:(rewrite Rabs_R0; lra) ltac:(rewrite Rabs_R1; lra)) as (B1 & B2).
    unfold col, S. rewrite <- A3, <- A4. split; assumption.
Qed.
