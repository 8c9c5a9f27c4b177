(** Rounding errors of the backward trace of the reference programs. *)
From Coq Require Import ZArith List Bool Lia Reals Lra.
From Flocq Require Import Core BinarySingleNaN Plus_error Relative.
From Verif Require Import Base Num NumB64 ModelVec ModelGrid ModelArray ModelInterp ModelRefMath SpecGrid SpecB64 SpecRound SpecRefTraceRound
  ProofsBase ProofsGrid ProofsArray ProofsGridProps ProofsInterp ProofsB64 ProofsB64Ops ProofsB64Grid ProofsRound ProofsRoundHermite SpecRefRound ProofsRefRound.
Open Scope R_scope.

Section Trace.
Variables (eps X V L W Ts c : R) (dt Tp : b64) (t : Z).
Hypothesis eps_range : u <= eps <= / 4096.
Hypothesis HX : moderate X.
Hypothesis HV : moderate V.
Hypothesis HT : moderate Ts.
Hypothesis Fdt : is_finite dt = true.
Hypothesis Hdt : moderate (real dt).
Hypothesis CFL : V * real dt <= X.
Hypothesis Ht : (0 <= t)%Z /\ (t + 1 < 2 ^ 32)%Z.
Hypothesis HTs : (IZR t + 1) * real dt <= Ts.
Hypothesis Hc : 0 <= c <= 32.
Hypothesis HL : 0 <= L.
Hypothesis HW : 0 <= W.
Hypothesis HLX : L * X <= c * V.
Hypothesis HWT : W * Ts <= c * V.
Notation ap := (ap64 eps).
Notation C := (calc64 eps eps_range).
Ltac num := unfold lim20 in *; lra.

Lemma from_u S B k z r : ap64 u S B k z r -> ap S B k z r.
Proof.
  intros (H1 & H2 & H3 & H4 & H5 & H6). split; [exact H1|]. split; [exact H2|]. split; [exact H3|]. split; [exact H4|]. split; [exact H5|].
  eapply Rle_trans; [exact H6|]. apply okS_pos in H1. apply Rmult_le_compat_r; [lra|]. apply Rmult_le_compat_l; lra.
Qed.
Lemma rescale S S' B k z r : ap S B k z r -> S <= S' -> okS S' -> ap S' B k z r.
Proof.
  intros (H1 & H2 & H3 & H4 & H5 & H6) H HS. apply okS_pos in H1. pose proof u_pos. split; [exact HS|]. split; [exact H2|]. split; [exact H3|]. split; [exact H4|].
  split; eapply Rle_trans; [exact H5| |exact H6|]; apply Rmult_le_compat_l; try exact H; [exact H2|]. apply Rmult_le_pos; lra.
Qed.
Lemma self S z : okS S -> is_finite z = true -> Rabs (real z) <= S -> ap S 1 0 z (real z).
Proof.
  intros HS F H. split; [exact HS|]. split; [lra|]. split; [lra|]. split; [exact F|]. split; [lra|]. unfold real. rewrite Rminus_diag_eq by reflexivity. rewrite Rabs_R0. lra.
Qed.
Lemma tiny S : moderate S -> bpow radix2 (-1000) <= / 512 * eps * S.
Proof.
  intros (A & _). assert (E : bpow radix2 (-1000) <= / 512 * u * bpow radix2 (-200)).
  { unfold u. change (/ 512) with (bpow radix2 (-9)). rewrite <- !bpow_plus. apply bpow_le. lia. }
  eapply Rle_trans; [exact E|]. pose proof u_pos. pose proof (bpow_gt_0 radix2 (-200)). apply Rmult_le_compat; try lra; try (apply Rmult_le_pos; lra).
Qed.
(** quotients of small integers *)
Lemma quot p q : (1 <= p <= q)%Z -> (q <= 6)%Z -> ap 1 1 2 (nofZ p / nofZ q)%num (IZR p / IZR q).
Proof.
  intros Hp Hq. destruct (int64 p) as (F1 & E1). { change (2 ^ 53)%Z with 9007199254740992%Z. lia. }
  destruct (int64 q) as (F2 & E2). { change (2 ^ 53)%Z with 9007199254740992%Z. lia. }
  assert (P : 1 <= IZR p) by (apply IZR_le; lia). assert (Q : IZR p <= IZR q) by (apply IZR_le; lia).
  assert (R1 : 0 < IZR p / IZR q <= 1).
  { split; [apply Rdiv_lt_0_compat; lra|]. apply Rmult_le_reg_r with (IZR q); [lra|]. unfold Rdiv. rewrite Rmult_assoc, Rinv_l, Rmult_1_r by lra. lra. }
  assert (R2 : Rabs (IZR p / IZR q) <= 1) by (rewrite Rabs_pos_eq; lra).
  destruct (div64_abs (b64_make p 0) (b64_make q 0) F1) as (F & E).
  { rewrite E2. lra. } { rewrite E1, E2. apply Rle_trans with (bpow radix2 0); [exact R2|apply bpow_le; lia]. }
  rewrite E1, E2 in E. split; [apply okS_1|]. split; [lra|]. split; [lra|]. split; [exact F|]. split; [lra|].
  eapply Rle_trans; [exact E|]. assert (M1 : moderate 1) by (apply (moderate_int 1); lia). pose proof (tiny 1 M1) as Ty. pose proof u_pos.
  assert (u * Rabs (IZR p / IZR q) <= u * 1) by (apply Rmult_le_compat_l; lra). lra.
Qed.
Lemma dt_ok : ap (real dt) 1 0 dt (real dt).
Proof. apply self; [apply okS_mod; exact Hdt|exact Fdt|]. pose proof (okS_pos _ (okS_mod _ Hdt)). rewrite Rabs_pos_eq; lra. Qed.
Lemma half_dt : ap (real dt) 1 2 (dt / #2)%num (real dt / 2).
Proof.
  destruct (int64 2) as (F2 & E2). { change (2 ^ 53)%Z with 9007199254740992%Z. lia. } pose proof (okS_pos _ (okS_mod _ Hdt)) as P.
  assert (R1 : Rabs (real dt / 2) = real dt / 2) by (apply Rabs_pos_eq; lra).
  destruct (div64_abs dt (b64_make 2 0) Fdt) as (F & E).
  { rewrite E2. lra. } { rewrite E2. fold (real dt). rewrite R1. apply Rle_trans with (real dt); [lra|]. destruct Hdt as (_ & Q). eapply Rle_trans; [exact Q|apply bpow_le; lia]. }
  rewrite E2 in E. fold (real dt) in E. rewrite R1 in E. split; [apply okS_mod; exact Hdt|]. split; [lra|]. split; [lra|]. split; [exact F|]. split; [rewrite R1; lra|].
  eapply Rle_trans; [exact E|]. pose proof (tiny _ Hdt) as Ty. pose proof u_pos.
  assert (u * (real dt / 2) <= eps * (real dt / 2)) by (apply Rmult_le_compat_r; lra). assert (0 <= eps * real dt) by (apply Rmult_le_pos; lra). lra.
Qed.
(** the times *)
Lemma time_ok k : (0 <= k)%Z -> (k <= t + 1)%Z -> ap Ts 1 2 (time_at k dt) (time_at k (real dt)).
Proof.
  intros K0 K1. unfold time_at. assert (EU : u32 k = k) by (unfold u32; rewrite Z.mod_small by lia; reflexivity). rewrite EU.
  destruct (int64 k) as (F1 & E1). { change (2 ^ 32)%Z with 4294967296%Z in Ht. change (2 ^ 53)%Z with 9007199254740992%Z. lia. }
  pose proof (okS_pos _ (okS_mod _ Hdt)) as P. assert (B0 : 0 <= IZR k) by (apply IZR_le; lia). assert (B1 : IZR k <= IZR t + 1) by (rewrite <- plus_IZR; apply IZR_le; lia).
  assert (BT : 0 <= IZR k * real dt <= Ts).
  { split; [apply Rmult_le_pos; lra|]. eapply Rle_trans; [|exact HTs]. apply Rmult_le_compat_r; lra. }
  assert (RA : Rabs (IZR k * real dt) = IZR k * real dt) by (apply Rabs_pos_eq; lra).
  destruct (mul64_abs (b64_make k 0) dt F1 Fdt) as (F & E).
  { rewrite E1. fold (real dt). rewrite RA. eapply Rle_trans; [apply BT|]. destruct HT as (_ & Q). eapply Rle_trans; [exact Q|apply bpow_le; lia]. }
  rewrite E1 in E. fold (real dt) in E. rewrite RA in E.
  split; [apply okS_mod; exact HT|]. split; [lra|]. split; [lra|]. split; [exact F|].
  change (Rabs (IZR k * real dt) <= 1 * Ts /\ Rabs (B2R (Bmult mode_NE (b64_make k 0) dt) - IZR k * real dt) <= 2 * eps * Ts). rewrite RA. split; [lra|].
  eapply Rle_trans; [exact E|]. pose proof (tiny _ HT) as Ty. pose proof u_pos. pose proof (okS_pos _ (okS_mod _ HT)).
  assert (u * (IZR k * real dt) <= eps * Ts) by (apply Rmult_le_compat; lra). assert (0 <= eps * Ts) by (apply Rmult_le_pos; lra). lra.
Qed.
Lemma mid_ok : ap Ts 2 7 (time_mid t dt) (time_mid t (real dt)).
Proof.
  unfold time_mid. assert (D : real dt <= Ts).
  { eapply Rle_trans; [|exact HTs]. pose proof (okS_pos _ (okS_mod _ Hdt)). assert (0 <= IZR t) by (apply IZR_le; lia). rewrite <- (Rmult_1_l (real dt)) at 1. apply Rmult_le_compat_r; lra. }
  refine (add' _ C _ 1 1 2 2 2 7 _ _ _ _ (time_ok t ltac:(lia) ltac:(lia)) (rescale _ _ _ _ _ _ half_dt D (okS_mod _ HT)) _ _ _ _ _); num.
Qed.
(** a velocity at a traced position *)
Lemma vel_ok g f (a b s : b64) (a' b' s' : R) k Ba Bb Bs : tracks64 g f Tp X V L W eps -> ap X Ba k a a' -> ap X Bb k b b' -> ap Ts Bs 7 s s' -> Ba <= 4 -> Bb <= 4 ->
  ap V 1 (1 + 2 * c * k + 7 * c) (g a b s Tp) (f a' b' s' (real Tp)).
Proof.
  intros Hg (OX & A1 & A2 & A3 & A4 & A5) (_ & B1 & B2 & B3 & B4 & B5) (OT & S1 & S2 & S3 & S4 & S5) La Lb. apply okS_pos in OX. apply okS_pos in OT. pose proof u_pos.
  destruct (Hg a b s a' b' s' A3 B3 S3) as (G1 & G2 & G3).
  { eapply Rle_trans; [exact A4|]. apply Rmult_le_compat_r; lra. } { eapply Rle_trans; [exact B4|]. apply Rmult_le_compat_r; lra. }
  unfold real in G3. pose proof (okS_pos _ (okS_mod _ HV)) as VP.
  assert (K0 : 0 <= 2 * c * k) by (apply Rmult_le_pos; lra).
  split; [apply okS_mod; exact HV|]. split; [lra|]. split; [lra|]. split; [exact G2|]. split; [unfold real in *; lra|].
  eapply Rle_trans; [exact G3|].
  assert (Q1 : L * (Rabs (B2R a - a') + Rabs (B2R b - b')) <= L * (2 * (k * eps * X))) by (apply Rmult_le_compat_l; lra).
  assert (Q2 : W * Rabs (B2R s - s') <= W * (7 * eps * Ts)) by (apply Rmult_le_compat_l; lra).
  assert (Q3 : 2 * (k * eps) * (L * X) <= 2 * (k * eps) * (c * V)) by (apply Rmult_le_compat_l; [assert (0 <= k * eps) by (apply Rmult_le_pos; lra); lra|exact HLX]).
  assert (Q4 : 7 * eps * (W * Ts) <= 7 * eps * (c * V)) by (apply Rmult_le_compat_l; lra). lra.
Qed.
Lemma okVd : bpow radix2 (-400) <= V * real dt <= bpow radix2 400.
Proof. exact (okS_prod _ _ _ _ _ _ HV Hdt). Qed.
Lemma okVd' : okS (V * real dt).
Proof. split; [eapply Rle_trans; [|apply okVd]|eapply Rle_trans; [apply okVd|]]; apply bpow_le; lia. Qed.
(** one step back from the node: x minus a displacement *)
Lemma back_ok x z r B k : is_finite x = true -> Rabs (real x) <= X -> ap (V * real dt) B k z r -> B <= 3 -> k <= lim20 -> ap X (1 + B) (k + 4 + / 512) (x - z)%num (real x - r).
Proof.
  intros F Hx H HB Hk. pose proof (rescale _ _ _ _ _ _ H CFL (okS_mod _ HX)) as H'. assert (0 <= B) by apply H.
  refine (sub' _ C _ 1 B 0 k _ _ _ _ _ _ (self X x (okS_mod _ HX) F Hx) H' _ _ _ _ _); num.
Qed.

Section Axis.
Variables (g : b64 -> b64 -> b64 -> b64 -> b64) (f : R -> R -> R -> R -> R) (x : b64) (v0 v1 v2 : b64) (r0 r1 r2 : R) (k0 k1 k2 : R).
Hypothesis Fx : is_finite x = true.
Hypothesis Hx : Rabs (real x) <= X.
Hypothesis A0 : ap V 1 k0 v0 r0.
Lemma euler_axis : k0 <= 1000000 -> ap X 2 (k0 + 5 + / 64) (x - v0 * dt)%num (real x - r0 * real dt).
Proof.
  intros H. assert (0 <= k0) by apply A0.
  pose proof (mul' _ C (V * real dt) V (real dt) 1 1 k0 0 1 (k0 + 1 + / 512) _ _ _ _ A0 dt_ok eq_refl okVd' ltac:(num) ltac:(num) ltac:(num) ltac:(num) ltac:(num) ltac:(lra)) as M.
  eapply (up _ C); [exact (back_ok x _ _ 1 _ Fx Hx M ltac:(lra) ltac:(num))|lra|lra].
Qed.
Hypothesis A1 : ap V 1 k1 v1 r1.
Lemma part p q k v r : (1 <= p <= q)%Z -> (q <= 6)%Z -> ap V 1 k v r -> k <= 1000000 -> ap V 1 (k * (1 + / 2048) + 3 + / 512) (nofZ p / nofZ q * v)%num (IZR p / IZR q * r).
Proof.
  intros Hp Hq H Hk. assert (0 <= k) by apply H.
  refine (mul' _ C V 1 V 1 1 2 k 1 _ _ _ _ _ (quot p q Hp Hq) H _ (okS_mod _ HV) _ _ _ _ _ _); try num.
Qed.
Lemma second_axis : k0 <= 400000 -> k1 <= 400000 ->
  ap X 3 (101 / 100 * (k0 + k1) + 20) (x - (dt / #2 * (#1 / #2 * v0 + #1 / #2 * v1)))%num (real x - (real dt / 2 * (1 / 2 * r0 + 1 / 2 * r1))).
Proof.
  intros H0 H1. assert (0 <= k0) by apply A0. assert (0 <= k1) by apply A1.
  pose proof (part 1 2 _ _ _ ltac:(lia) ltac:(lia) A0 ltac:(lra)) as P0. pose proof (part 1 2 _ _ _ ltac:(lia) ltac:(lia) A1 ltac:(lra)) as P1.
  pose proof (add' _ C V 1 1 _ _ 2 ((k0 + k1) * (1 + / 2048) + 9) _ _ _ _ P0 P1 ltac:(lra) ltac:(num) ltac:(num) ltac:(num) ltac:(lra)) as P.
  pose proof (mul' _ C (V * real dt) (real dt) V 1 2 2 _ 2 ((k0 + k1) * (1 + / 1000) + 15 + / 32) _ _ _ _ half_dt P ltac:(ring) okVd' ltac:(num) ltac:(num) ltac:(num) ltac:(num) ltac:(num) ltac:(lra)) as M.
  eapply (up _ C); [exact (back_ok x _ _ 2 _ Fx Hx M ltac:(lra) ltac:(num))|lra|].
  lra.
Qed.
Hypothesis A2 : ap V 1 k2 v2 r2.
Lemma third_axis : k0 + k1 + k2 <= 1000000 ->
  ap X 4 (101 / 100 * (k0 + k1 + k2) + 40) (x - (dt * (#1 / #6 * v0 + #1 / #6 * v1 + #2 / #3 * v2)))%num (real x - (real dt * (1 / 6 * r0 + 1 / 6 * r1 + 2 / 3 * r2))).
Proof.
  intros H0. assert (0 <= k0) by apply A0. assert (0 <= k1) by apply A1. assert (0 <= k2) by apply A2.
  pose proof (part 1 6 _ _ _ ltac:(lia) ltac:(lia) A0 ltac:(lra)) as P0. pose proof (part 1 6 _ _ _ ltac:(lia) ltac:(lia) A1 ltac:(lra)) as P1. pose proof (part 2 3 _ _ _ ltac:(lia) ltac:(lia) A2 ltac:(lra)) as P2.
  pose proof (add' _ C V 1 1 _ _ 2 ((k0 + k1) * (1 + / 2048) + 9) _ _ _ _ P0 P1 ltac:(lra) ltac:(num) ltac:(num) ltac:(num) ltac:(lra)) as P.
  pose proof (add' _ C V 2 1 _ _ 3 ((k0 + k1 + k2) * (1 + / 2048) + 16) _ _ _ _ P P2 ltac:(lra) ltac:(num) ltac:(num) ltac:(num) ltac:(lra)) as Q.
  pose proof (mul' _ C (V * real dt) (real dt) V 1 3 0 _ 3 ((k0 + k1 + k2) * (1 + / 1000) + 25) _ _ _ _ dt_ok Q ltac:(ring) okVd' ltac:(num) ltac:(num) ltac:(num) ltac:(num) ltac:(num) ltac:(lra)) as M.
  eapply (up _ C); [exact (back_ok x _ _ 3 _ Fx Hx M ltac:(lra) ltac:(num))|lra|].
  lra.
Qed.
End Axis.

Variables (G : flow b64) (F : flow R) (x y : b64).
Hypothesis HF : flow_tracks64 G F Tp X V L W eps.
Hypothesis Fx : is_finite x = true.
Hypothesis Fy : is_finite y = true.
Hypothesis Hx : Rabs (real x) <= X.
Hypothesis Hy : Rabs (real y) <= X.
Let kv1 := 1 + 7 * c.
Let ke := kv1 + 5 + / 64.
Let kv2 := 1 + 2 * c * ke + 7 * c.
Let ks := 101 / 100 * (kv1 + kv2) + 20.
Let kv3 := 1 + 2 * c * ks + 7 * c.
Lemma c_bounds : 0 <= c * c <= 1024 /\ 0 <= c * c * c <= 32768 /\ 0 <= c * c.
Proof.
  assert (0 <= c * c) by (apply Rmult_le_pos; lra). assert (c * c <= 32 * 32) by (apply Rmult_le_compat; lra). assert (0 <= c * c * c) by (apply Rmult_le_pos; lra).
  assert (c * c * c <= 1024 * 32) by (apply Rmult_le_compat; lra). lra.
Qed.
Lemma t7 B k z r : ap Ts B k z r -> k <= 7 -> ap Ts B 7 z r.
Proof. intros H Hk. eapply (up _ C); [exact H|lra|exact Hk]. Qed.
Lemma kv1_eq : 1 + 2 * c * 0 + 7 * c = kv1.
Proof. unfold kv1. ring. Qed.
Lemma node_v g f : tracks64 g f Tp X V L W eps -> ap V 1 kv1 (g x y (time_at (t + 1) dt) Tp) (f (real x) (real y) (time_at (t + 1) (real dt)) (real Tp)).
Proof.
  intros H. rewrite <- kv1_eq. apply (vel_ok g f _ _ _ _ _ _ 0 1 1 1 H); [apply self; auto; apply okS_mod; exact HX|apply self; auto; apply okS_mod; exact HX| |lra|lra].
  apply (t7 1 2); [|lra]. apply time_ok; lia.
Qed.
Lemma euler_ok : ap X 2 ke (fst (euler_back G x y t dt Tp)) (fst (euler_back F (real x) (real y) t (real dt) (real Tp)))
  /\ ap X 2 ke (snd (euler_back G x y t dt Tp)) (snd (euler_back F (real x) (real y) t (real dt) (real Tp))).
Proof.
  destruct HF as (H1 & H2). unfold euler_back. cbn [fst snd].
  split; [apply euler_axis; [exact Fx|exact Hx|apply node_v; exact H1|unfold kv1; lra]|apply euler_axis; [exact Fy|exact Hy|apply node_v; exact H2|unfold kv1; lra]].
Qed.
Lemma euler_v g f : tracks64 g f Tp X V L W eps -> let a := euler_back G x y t dt Tp in let a' := euler_back F (real x) (real y) t (real dt) (real Tp) in
  ap V 1 kv2 (g (fst a) (snd a) (time_at t dt) Tp) (f (fst a') (snd a') (time_at t (real dt)) (real Tp)).
Proof.
  intros H a a'. destruct euler_ok as (E1 & E2). apply (vel_ok g f _ _ _ _ _ _ ke 2 2 1 H); [exact E1|exact E2| |lra|lra].
  apply (t7 1 2); [|lra]. apply time_ok; lia.
Qed.
Lemma second_ok : let a := euler_back G x y t dt Tp in let a' := euler_back F (real x) (real y) t (real dt) (real Tp) in
  ap X 3 ks (fst (second_back G x y (fst a) (snd a) t dt Tp)) (fst (second_back F (real x) (real y) (fst a') (snd a') t (real dt) (real Tp)))
  /\ ap X 3 ks (snd (second_back G x y (fst a) (snd a) t dt Tp)) (snd (second_back F (real x) (real y) (fst a') (snd a') t (real dt) (real Tp))).
Proof.
  destruct HF as (H1 & H2). pose proof c_bounds as CB. intros a a'. unfold second_back. cbn [fst snd].
  split; [apply second_axis; [exact Fx|exact Hx|apply node_v; exact H1|apply euler_v; exact H1|..]|apply second_axis; [exact Fy|exact Hy|apply node_v; exact H2|apply euler_v; exact H2|..]];
  unfold kv2, ke, kv1; lra.
Qed.
Lemma third_ok : let a := euler_back G x y t dt Tp in let a' := euler_back F (real x) (real y) t (real dt) (real Tp) in
  let b := second_back G x y (fst a) (snd a) t dt Tp in let b' := second_back F (real x) (real y) (fst a') (snd a') t (real dt) (real Tp) in
  let K := trace_factor true c in
  ap X 4 K (fst (third_back G x y (fst a) (snd a) (fst b) (snd b) t dt Tp)) (fst (third_back F (real x) (real y) (fst a') (snd a') (fst b') (snd b') t (real dt) (real Tp)))
  /\ ap X 4 K (snd (third_back G x y (fst a) (snd a) (fst b) (snd b) t dt Tp)) (snd (third_back F (real x) (real y) (fst a') (snd a') (fst b') (snd b') t (real dt) (real Tp))).
Proof.
  destruct HF as (H1 & H2). pose proof c_bounds as CB. intros a a' b b' K. destruct second_ok as (S1 & S2). fold a a' in S1, S2. fold b b' in S1, S2.
  assert (VB : forall g f, tracks64 g f Tp X V L W eps -> ap V 1 kv3 (g (fst b) (snd b) (time_mid t dt) Tp) (f (fst b') (snd b') (time_mid t (real dt)) (real Tp))).
  { intros g f H. apply (vel_ok g f _ _ _ _ _ _ ks 3 3 2 H); [exact S1|exact S2|apply mid_ok|lra|lra]. }
  assert (KS : kv1 + kv2 + kv3 <= 1000000) by (unfold kv3, ks, kv2, ke, kv1; lra).
  assert (KK : 101 / 100 * (kv1 + kv2 + kv3) + 40 <= K) by (unfold K, trace_factor, kv3, ks, kv2, ke, kv1; lra).
  unfold third_back. cbn [fst snd].
  split; (eapply (up _ C); [|apply Rle_refl|exact KK]).
  - apply third_axis; [exact Fx|exact Hx|apply node_v; exact H1|apply euler_v; exact H1|apply VB; exact H1|exact KS].
  - apply third_axis; [exact Fy|exact Hy|apply node_v; exact H2|apply euler_v; exact H2|apply VB; exact H2|exact KS].
Qed.
Lemma trace_ok rk3 : let p := back_trace G rk3 x y t dt Tp in let p' := back_trace F rk3 (real x) (real y) t (real dt) (real Tp) in
  (is_finite (fst p) = true /\ is_finite (snd p) = true) /\
  Rabs (real (fst p) - fst p') <= trace_factor rk3 c * eps * X /\ Rabs (real (snd p) - snd p') <= trace_factor rk3 c * eps * X.
Proof.
  intros p p'. assert (Q : exists B, ap X B (trace_factor rk3 c) (fst p) (fst p') /\ ap X B (trace_factor rk3 c) (snd p) (snd p')).
  { subst p p'. unfold back_trace. destruct rk3.
    - exists 4. exact third_ok.
    - exists 2. destruct euler_ok as (E1 & E2). split; (eapply (up _ C); [eassumption|lra|]); unfold trace_factor, ke, kv1; lra. }
  destruct Q as (B & (_ & _ & _ & F1 & _ & E1) & (_ & _ & _ & F2 & _ & E2)). repeat split; assumption.
Qed.
End Trace.

Theorem trace64 : forall (G : flow b64) (F : flow R) (rk3 : bool) (x y dt Tp : b64) (t : Z) (eps X V L W Ts c : R),
  u <= eps <= / 4096 -> moderate X -> moderate V -> moderate Ts -> is_finite dt = true -> moderate (real dt) -> is_finite x = true -> is_finite y = true ->
  Rabs (real x) <= X -> Rabs (real y) <= X -> V * real dt <= X -> (0 <= t)%Z -> (t + 1 < 2 ^ 32)%Z -> (IZR t + 1) * real dt <= Ts ->
  0 <= c <= 32 -> 0 <= L -> 0 <= W -> L * X <= c * V -> W * Ts <= c * V -> flow_tracks64 G F Tp X V L W eps ->
  let p := back_trace G rk3 x y t dt Tp in let p' := back_trace F rk3 (real x) (real y) t (real dt) (real Tp) in
  (is_finite (fst p) = true /\ is_finite (snd p) = true) /\
  Rabs (real (fst p) - fst p') <= trace_factor rk3 c * eps * X /\ Rabs (real (snd p) - snd p') <= trace_factor rk3 c * eps * X.
Proof. intros. apply (trace_ok eps X V L W Ts c dt Tp t); auto. Qed.

(** *** a case: a saddle, the velocity (y, x) *)
Definition saddle {T} {NT : Num T} : flow T :=
  mkFlow (fun x y t Tp => y) (fun x y t Tp => x) (fun x y t Tp => #0%num) (fun x y t Tp => #1%num) (fun x y t Tp => #1%num) (fun x y t Tp => #0%num).
Lemma saddle_tracks Tp eps X : 0 <= eps -> 0 <= X -> flow_tracks64 saddle saddle Tp X (4 * X) 1 0 eps.
Proof.
  intros He HX. assert (0 <= eps * (4 * X)) by (apply Rmult_le_pos; lra).
  split; intros a b s a' b' s' Fa Fb Fs Ha Hb; cbn [Velx Vely saddle]; (split; [assumption|]); (split; [assumption|]);
  pose proof (Rabs_pos (real a - a')); pose proof (Rabs_pos (real b - b')); lra.
Qed.
Lemma saddle_case : let dt : b64 := b64_make 1 (-3) in let x : b64 := b64_make 1 (-2) in let y : b64 := b64_make (-1) 0 in
  u <= bpow radix2 (-53) <= / 4096 /\ moderate 1 /\ moderate 4 /\ moderate 2 /\ is_finite dt = true /\ moderate (real dt) /\ is_finite x = true /\ is_finite y = true /\
  Rabs (real x) <= 1 /\ Rabs (real y) <= 1 /\ 4 * real dt <= 1 /\ (0 <= 5)%Z /\ (5 + 1 < 2 ^ 32)%Z /\ (IZR 5 + 1) * real dt <= 2 /\
  0 <= 1 <= 32 /\ 0 <= 1 /\ 0 <= 0 /\ 1 * 1 <= 1 * 4 /\ 0 * 2 <= 1 * 4 /\ flow_tracks64 saddle saddle (b64_make 8 0) 1 4 1 0 (bpow radix2 (-53)).
Proof.
  intros dt x y. assert (Edt : real dt = / 8) by (unfold dt, real; cbn; unfold F2R; cbn; lra).
  assert (Ex : real x = / 4) by (unfold x, real; cbn; unfold F2R; cbn; lra). assert (Ey : real y = -1) by (unfold y, real; cbn; unfold F2R; cbn; lra).
  pose proof u_val as Uv. rewrite Edt, Ex, Ey.
  split; [fold u; rewrite Uv; lra|]. split; [apply (moderate_int 1); lia|]. split; [apply (moderate_int 4); lia|]. split; [apply (moderate_int 2); lia|].
  split; [reflexivity|]. split. { split; [apply (bpow_le radix2 (-200) (-3)); lia|apply Rle_trans with 1; [lra|apply (bpow_le radix2 0 200); lia]]. }
  split; [reflexivity|]. split; [reflexivity|]. split; [rewrite Rabs_pos_eq; lra|]. split; [rewrite Rabs_left; lra|]. split; [lra|]. split; [lia|]. split; [reflexivity|].
  split; [lra|]. split; [lra|]. split; [lra|]. split; [lra|]. split; [lra|]. split; [lra|].
  replace 4 with (4 * 1) by ring. apply saddle_tracks; [apply bpow_ge_0|lra].
Qed.
