(** Errors in the data and the interpolant. *)
From Coq Require Import ZArith List Reals Lra Lia.
From Flocq Require Import Core.
From Verif Require Import Base Num NumB64 ModelVec ModelGrid ModelArray ModelInterp SpecGrid SpecInterp SpecGradient SpecAccuracy SpecRound SpecSensitive
  ProofsBase ProofsGrid ProofsGridProps ProofsHermite ProofsHermiteCell ProofsHermiteErr ProofsArray ProofsHermiteExact ProofsInterp ProofsInterpProps ProofsInterpMore.
Open Scope R_scope.

Definition gain (d : bool) : R := if d then 4 else 5 / 4.
Lemma gain_pos d : 0 < gain d. Proof. destruct d; cbn; lra. Qed.

Lemma Hw_gain d e p0 s0 p1 s1 p0' s0' p1' s1' h A : 0 <= e <= 1 -> 0 < h ->
  Rabs (p0 - p0') <= A -> Rabs (s0 - s0') * h <= A -> Rabs (p1 - p1') <= A -> Rabs (s1 - s1') * h <= A ->
  Rabs (Hw (wts d e) p0 s0 p1 s1 h - Hw (wts d e) p0' s0' p1' s1' h) <= gain d * A.
Proof.
  intros He Hh P0 S0 P1 S1.
  assert (K : forall s, s * h <= A -> s <= A / h) by (intros s Hs; apply Rmult_le_reg_r with h; [exact Hh|]; unfold Rdiv; rewrite Rmult_assoc, Rinv_l; lra).
  apply K in S0, S1. unfold gain. destruct d.
  - pose proof (slope_stable e p0 s0 p1 s1 p0' s0' p1' s1' h A (A / h) He Hh P0 P1 S0 S1) as E.
    set (u := Hw _ p0 s0 p1 s1 h) in *. set (v := Hw _ p0' s0' p1' s1' h) in *. clearbody u v.
    replace (u - v) with ((u / h - v / h) * h) by (field; lra). rewrite Rabs_mult, (Rabs_pos_eq h) by lra.
    apply Rmult_le_compat_r with (r := h) in E; [|lra]. eapply Rle_trans; [exact E|]. right. field. lra.
  - pose proof (value_stable e p0 s0 p1 s1 p0' s0' p1' s1' h A (A / h) He Hh P0 P1 S0 S1) as E.
    eapply Rle_trans; [exact E|]. right. field. lra.
Qed.
(** the same with everything multiplied by w *)
Lemma Hw_gain_w w d e p0 s0 p1 s1 p0' s0' p1' s1' h A : 0 < w -> 0 <= e <= 1 -> 0 < h ->
  Rabs (p0 - p0') * w <= A -> Rabs (s0 - s0') * (w * h) <= A -> Rabs (p1 - p1') * w <= A -> Rabs (s1 - s1') * (w * h) <= A ->
  Rabs (Hw (wts d e) p0 s0 p1 s1 h - Hw (wts d e) p0' s0' p1' s1' h) * w <= gain d * A.
Proof.
  intros Hw' He Hh P0 S0 P1 S1.
  assert (K : forall s, s * w <= A -> s <= A / w) by (intros s Hs; apply Rmult_le_reg_r with w; [exact Hw'|]; unfold Rdiv; rewrite Rmult_assoc, Rinv_l; lra).
  replace (gain d * A) with (gain d * (A / w) * w) by (field; lra). apply Rmult_le_compat_r; [lra|].
  apply Hw_gain; try assumption; apply K; try assumption; rewrite Rmult_assoc, (Rmult_comm h); assumption.
Qed.

Definition gains (dim : nat) (s : option axis) : R :=
  gain (flag s AX) * ((if used dim AY then gain (flag s AY) else 1) * (if used dim AZ then gain (flag s AZ) else 1)).
Lemma gains_value dim : (1 <= dim <= 3)%nat -> gains dim None = value_gain dim.
Proof. intros H. unfold gains, value_gain. assert (D : dim = 1%nat \/ dim = 2%nat \/ dim = 3%nat) by lia. destruct D as [->|[->| ->]]; cbn; lra. Qed.
Lemma gains_slope dim a : (1 <= dim <= 3)%nat -> used dim a = true -> gains dim (Some a) = slope_gain dim.
Proof.
  intros H Hu. unfold gains, slope_gain. assert (D : dim = 1%nat \/ dim = 2%nat \/ dim = 3%nat) by lia. destruct D as [->|[->| ->]]; destruct a; try discriminate; cbn; lra.
Qed.

Definition near_entries (dim : nat) (h : vec3 R) (A : R) (s : cell_values) : Prop :=
  Rabs (cv s) <= A /\ Rabs (cv_x s) * vx h <= A /\
  (used dim AY = true -> Rabs (cv_y s) * vy h <= A /\ Rabs (cv_xy s) * (vx h * vy h) <= A) /\
  (used dim AZ = true -> Rabs (cv_z s) * vz h <= A /\ Rabs (cv_yz s) * (vy h * vz h) <= A /\
       Rabs (cv_zx s) * (vz h * vx h) <= A /\ Rabs (cv_xyz s) * (vx h * vy h * vz h) <= A).

Lemma HD_gain dim s e S S' b h A : (1 <= dim <= 3)%nat -> (forall a, 0 <= vget e a <= 1) -> (forall a, used dim a = true -> 0 < vget h a) ->
  (forall b', is_corner dim b b' -> near_entries dim h A (cv_minus (S b') (S' b'))) ->
  Rabs (HD dim (Wt s e) (fun c => toQ (S c)) b h - HD dim (Wt s e) (fun c => toQ (S' c)) b h) <= gains dim s * A.
Proof.
  intros Hd He Hh H. pose proof (He AX) as HX. pose proof (He AY) as HY. pose proof (He AZ) as HZ. pose proof (Hh AX) as KX. pose proof (Hh AY) as KY. pose proof (Hh AZ) as KZ.
  cbn [vget] in *. unfold gains.
  assert (D : dim = 1%nat \/ dim = 2%nat \/ dim = 3%nat) by lia. destruct D as [->|[->| ->]]; cbn [HD used Nat.leb] in *; unfold Wt; cbn [vget].
  - specialize (KX eq_refl). destruct (H b (corner_refl _ _)) as (P0 & P1 & _). destruct (H _ (corner_x _ b)) as (Q0 & Q1 & _).
    rewrite !Rmult_1_r. apply Hw_gain; assumption.
  - specialize (KX eq_refl). specialize (KY eq_refl). unfold H2w. rewrite Rmult_1_r, Rmult_assoc.
    assert (K : forall b', is_corner 2 b b' -> let d := cv_minus (S b') (S' b') in Rabs (cv d) <= A /\ Rabs (cv_x d) * vx h <= A /\ Rabs (cv_y d) * vy h <= A /\ Rabs (cv_xy d) * (vx h * vy h) <= A).
    { intros b' Hc d. destruct (H b' Hc) as (P0 & P1 & P2 & _). destruct (P2 eq_refl). auto. }
    assert (C1 : is_corner 2 b b) by apply corner_refl. 
    pose proof (corner_x 2 b) as C2.
    pose proof (K _ C1) as (A0 & A1 & A2 & A3). pose proof (K _ C2) as (B0 & B1 & B2 & B3).
    assert (C3 : is_corner 2 b (cstep b AY)) by (destruct b as [[i j] k]; intros [| |]; cbn; auto).
    assert (C4 : is_corner 2 b (cstep (cstep b AX) AY)) by (destruct b as [[i j] k]; intros [| |]; cbn; auto).
    pose proof (K _ C3) as (E0 & E1 & E2 & E3). pose proof (K _ C4) as (F0 & F1 & F2 & F3).
    apply Hw_gain; try assumption; cbn [toQ q_phi q_psi q_m0 vx vy vz];
      solve [apply Hw_gain; assumption|apply Hw_gain_w; assumption].
  - specialize (KX eq_refl). specialize (KY eq_refl). specialize (KZ eq_refl). unfold corners3, H3w.
    rewrite (Rmult_assoc (gain (flag s AX))), (Rmult_assoc (gain (flag s AY))).
    assert (K : forall b', is_corner 3 b b' -> let d := cv_minus (S b') (S' b') in Rabs (cv d) <= A /\ Rabs (cv_x d) * vx h <= A /\ Rabs (cv_y d) * vy h <= A /\ Rabs (cv_xy d) * (vx h * vy h) <= A /\
      Rabs (cv_z d) * vz h <= A /\ Rabs (cv_yz d) * (vy h * vz h) <= A /\ Rabs (cv_zx d) * (vx h * vz h) <= A /\ Rabs (cv_xyz d) * (vx h * vy h * vz h) <= A).
    { intros b' Hc d. destruct (H b' Hc) as (P0 & P1 & P2 & P3). destruct (P2 eq_refl). destruct (P3 eq_refl) as (? & ? & P4 & ?). rewrite (Rmult_comm (vz h)) in P4. auto 10. }
    assert (C : forall b', (exists u v w, b' = (if (u : bool) then cstep (if (v : bool) then cstep (if (w : bool) then cstep b AX else b) AY else if w then cstep b AX else b) AZ else if v then cstep (if w then cstep b AX else b) AY else if w then cstep b AX else b)) -> is_corner 3 b b').
    { intros b' (u & v & w & ->). destruct b as [[i j] k]. destruct u, v, w; intros [| |]; cbn; auto. }
    pose proof (K _ (C b ltac:(exists false, false, false; reflexivity))) as (A0 & A1 & A2 & A3 & A4 & A5 & A6 & A7).
    pose proof (K _ (C (cstep b AX) ltac:(exists false, false, true; reflexivity))) as (B0 & B1 & B2 & B3 & B4 & B5 & B6 & B7).
    pose proof (K _ (C (cstep b AY) ltac:(exists false, true, false; reflexivity))) as (E0 & E1 & E2 & E3 & E4 & E5 & E6 & E7).
    pose proof (K _ (C (cstep b AZ) ltac:(exists true, false, false; reflexivity))) as (F0 & F1 & F2 & F3 & F4 & F5 & F6 & F7).
    pose proof (K _ (C (cstep (cstep b AX) AY) ltac:(exists false, true, true; reflexivity))) as (G0 & G1 & G2 & G3 & G4 & G5 & G6 & G7).
    pose proof (K _ (C (cstep (cstep b AY) AZ) ltac:(exists true, true, false; reflexivity))) as (I0 & I1 & I2 & I3 & I4 & I5 & I6 & I7).
    pose proof (K _ (C (cstep (cstep b AX) AZ) ltac:(exists true, false, true; reflexivity))) as (J0 & J1 & J2 & J3 & J4 & J5 & J6 & J7).
    pose proof (K _ (C (cstep (cstep (cstep b AX) AY) AZ) ltac:(exists true, true, true; reflexivity))) as (L0 & L1 & L2 & L3 & L4 & L5 & L6 & L7).
    clear K C H. assert (KXY : 0 < vx h * vy h) by (apply Rmult_lt_0_compat; assumption).
    apply Hw_gain; try assumption; cbn [toQ q_phi q_psi q_m0 q_m1 q_m2 q_m3 vx vy vz].
    all: first [apply Hw_gain; try assumption|apply Hw_gain_w; try assumption].
    all: solve [apply Hw_gain; assumption|apply Hw_gain_w; assumption].
Qed.

Section Sens.
Variables (ov : ovmode) (dim : nat) (n : vec3 Z) (bmin bmax : vec3 R) (g : grid R) (l l' : levelset R) (S S' : cell -> cell_values) (A : R).
Hypothesis Hb : built ov dim n 1 bmin bmax g.
Hypothesis Hl : levelset_on g l.
Hypothesis Hl' : levelset_on g l'.
Hypothesis Hbox : proper_box dim bmin bmax.
Hypothesis Hdef : interp_defined ov dim.
Hypothesis HS : stores ov dim n 1 g l S.
Hypothesis HS' : stores ov dim n 1 g l' S'.
Notation h := (spacings n bmin bmax).
Hypothesis HA : sized dim n 1 h A (fun c => cv_minus (S c) (S' c)).

Lemma interp_stores_HD lx Sx x : levelset_on g lx -> stores ov dim n 1 g lx Sx -> in_lattice dim n bmin bmax x ->
  let b := bcell dim n bmin bmax x in let e := loc dim n bmin bmax b x in
  exists f, interpolate ov g x lx false = Ok f /\ f_phi f = HD dim (Wt None e) (fun c => toQ (Sx c)) b h /\
    forall a, used dim a = true -> vget (f_psi f) a = HD dim (Wt (Some a) e) (fun c => toQ (Sx c)) b h * / vget h a.
Proof.
  intros Hlx HSx Hx b e. destruct (interp_HD ov dim n bmin bmax g lx Hb Hlx Hbox Hdef x Hx) as (f & E & E1 & E2).
  assert (EQ : forall W, HD dim W (cell_data g lx) (bcell dim n bmin bmax x) h = HD dim W (fun c => toQ (Sx c)) (bcell dim n bmin bmax x) h).
  { intros W. apply HD_ext; [apply Hb|]. intros b' Hb'.
    destruct (stores_data ov dim n bmin bmax g lx Hb Sx b' HSx (corner_padded ov dim n bmin bmax g Hb Hbox x b' Hx Hb')) as (A1 & B & C & D').
    cbn [toQ q_phi q_psi q_m0 q_m1 q_m2 q_m3]. rewrite B. auto. }
  exists f. split; [exact E|]. split; [rewrite E1; apply EQ|]. intros a Hu. rewrite E2. unfold hpsi. rewrite Hu, os_get. f_equal. apply EQ.
Qed.

Lemma interp_sensitive x : in_lattice dim n bmin bmax x ->
  exists f f', interpolate ov g x l false = Ok f /\ interpolate ov g x l' false = Ok f' /\
    Rabs (f_phi f - f_phi f') <= value_gain dim * A /\
    forall a, used dim a = true -> Rabs (vget (f_psi f) a - vget (f_psi f') a) <= slope_gain dim * (A / vget h a).
Proof.
  intros Hx. destruct (interp_stores_HD l S x Hl HS Hx) as (f & E & E1 & E2). destruct (interp_stores_HD l' S' x Hl' HS' Hx) as (f' & E' & E1' & E2').
  exists f, f'. split; [exact E|]. split; [exact E'|].
  pose proof (proj1 (proj1 Hb)) as Hd.
  assert (Hp : forall a, used dim a = true -> 0 < vget h a) by (intros a Hu; exact (hs_pos ov dim n bmin bmax g Hb Hbox a Hu)).
  assert (G : forall s, Rabs (HD dim (Wt s (loc dim n bmin bmax (bcell dim n bmin bmax x) x)) (fun c => toQ (S c)) (bcell dim n bmin bmax x) h
       - HD dim (Wt s (loc dim n bmin bmax (bcell dim n bmin bmax x) x)) (fun c => toQ (S' c)) (bcell dim n bmin bmax x) h) <= gains dim s * A).
  { intros s. apply HD_gain; [exact Hd| |exact Hp|].
    - intros a. pose proof (base_in_cell dim n bmin bmax x a) as H. rewrite loc_get. destruct (used dim a); lra.
    - intros b' Hc. apply (HA b'). exact (corner_padded ov dim n bmin bmax g Hb Hbox x b' Hx Hc). }
  split; [rewrite E1, E1', <- (gains_value dim Hd); apply G|].
  intros a Hu. rewrite (E2 a Hu), (E2' a Hu), <- Rmult_minus_distr_r, Rabs_mult, (Rabs_pos_eq (/ vget h a)) by (apply Rlt_le, Rinv_0_lt_compat, Hp, Hu).
  rewrite <- (gains_slope dim a Hd Hu). unfold Rdiv. rewrite <- Rmult_assoc. apply Rmult_le_compat_r; [apply Rlt_le, Rinv_0_lt_compat, Hp, Hu|apply G].
Qed.
End Sens.
