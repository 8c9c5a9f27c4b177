(** Rounding errors of the gradient update of the reference programs. *)
From Coq Require Import ZArith List Bool Lia Reals Lra.
From Flocq Require Import Core BinarySingleNaN Plus_error Relative.
From Verif Require Import Base Num NumB64 ModelVec ModelGrid ModelArray ModelInterp ModelRefMath SpecGrid SpecB64 SpecRound SpecRefTraceRound SpecRefSuperRound
  ProofsBase ProofsB64 ProofsB64Ops ProofsRound ProofsRoundHermite SpecRefRound ProofsRefRound ProofsRefTraceRound.
Open Scope R_scope.

Section Super.
Variables (eps X V L W H L' W' Ts S : R) (dt Tp : b64) (t : Z).
Hypothesis eps_range : u <= eps <= / 4096.
Hypothesis HX : moderate X.
Hypothesis HV : moderate V.
Hypothesis HH : moderate H.
Hypothesis HT : moderate Ts.
Hypothesis HS : moderate S.
Hypothesis Fdt : is_finite dt = true.
Hypothesis Hdt : moderate (real dt).
Hypothesis CFL : V * real dt <= X.
Hypothesis CFL' : H * real dt <= 1.
Hypothesis Ht : (0 <= t)%Z /\ (t + 1 < 2 ^ 32)%Z.
Hypothesis HTs : (IZR t + 1) * real dt <= Ts.
Hypothesis HL : 0 <= L.
Hypothesis HW : 0 <= W.
Hypothesis HLX : L * X <= 8 * V.
Hypothesis HWT : W * Ts <= 8 * V.
Hypothesis HL' : 0 <= L'.
Hypothesis HW' : 0 <= W'.
Hypothesis HLX' : L' * X <= 8 * H.
Hypothesis HWT' : W' * Ts <= 8 * H.
Notation ap := (ap64 eps).
Notation C := (calc64 eps eps_range).
Ltac num := unfold lim20 in *; lra.

(** a fraction of the time step *)
Lemma frac q : (2 <= q <= 6)%Z -> ap (real dt) (/ IZR q) 2 (dt / nofZ q)%num (real dt / IZR q).
Proof.
  intros Hq. destruct (int64 q) as (F2 & E2). { change (2 ^ 53)%Z with 9007199254740992%Z. lia. } pose proof (okS_pos _ (okS_mod _ Hdt)) as P.
  assert (Q2 : 2 <= IZR q) by (apply IZR_le; lia). assert (I0 : 0 < / IZR q) by (apply Rinv_0_lt_compat; lra). assert (I1 : / IZR q <= / 2) by (apply Rinv_le_contravar; lra).
  assert (R0 : 0 <= real dt / IZR q <= real dt * / 2) by (unfold Rdiv; split; [apply Rmult_le_pos; lra|apply Rmult_le_compat_l; lra]).
  assert (R1 : Rabs (real dt / IZR q) = real dt / IZR q) by (apply Rabs_pos_eq; lra).
  destruct (div64_abs dt (b64_make q 0) Fdt) as (F & E).
  { rewrite E2. lra. } { rewrite E2. fold (real dt). rewrite R1. apply Rle_trans with (real dt); [lra|]. destruct Hdt as (_ & Q). eapply Rle_trans; [exact Q|apply bpow_le; lia]. }
  rewrite E2 in E. fold (real dt) in E. rewrite R1 in E. split; [apply okS_mod; exact Hdt|]. split; [lra|]. split; [lra|]. split; [exact F|]. split; [rewrite R1; unfold Rdiv; lra|].
  eapply Rle_trans; [exact E|]. pose proof (tiny eps eps_range _ Hdt) as Ty. pose proof u_pos.
  assert (u * (real dt / IZR q) <= eps * (real dt * / 2)) by (apply Rmult_le_compat; lra). assert (0 <= eps * real dt) by (apply Rmult_le_pos; lra). lra.
Qed.
Lemma okHd : okS (H * real dt).
Proof. pose proof (okS_prod _ _ _ _ _ _ HH Hdt) as Q. cbn [Z.add Z.opp] in Q. split; [eapply Rle_trans; [|apply Q]|eapply Rle_trans; [apply Q|]]; apply bpow_le; lia. Qed.
Lemma okH : okS H. Proof. apply okS_mod. exact HH. Qed.
Lemma okSS : okS S. Proof. apply okS_mod. exact HS. Qed.
Lemma one : ap 1 1 0 (#1)%num 1.
Proof. apply (up _ C 1 (IZR (Z.abs 1)) 0); [apply from_u; [exact eps_range|apply (int_ 1); lia]|apply Rle_refl|lra]. Qed.
Lemma zero : ap 1 0 0 (#0)%num 0.
Proof. apply (up _ C 1 (IZR (Z.abs 0)) 0); [apply from_u; [exact eps_range|apply (int_ 0); lia]|apply Rle_refl|lra]. Qed.
Lemma four : ap 1 4 0 (#4)%num 4.
Proof. apply (up _ C 1 (IZR (Z.abs 4)) 0); [apply from_u; [exact eps_range|apply (int_ 4); lia]|apply Rle_refl|lra]. Qed.
(** d minus a fraction of the time step times a sum of gradients *)
Lemma back B0 i i' q B k z r kr : ap 1 B0 0 i i' -> B0 <= 1 -> ap (real dt) q 2 z (real dt * q) -> q <= 1 -> forall w s, ap H B k w s -> B <= 30 -> k <= 500000 ->
  r = real dt * q * s -> kr = q * k + 4 * B + k / 2000 + 2 -> ap 1 (1 + q * B) kr (i - z * w)%num (i' - r).
Proof.
  intros I HB0 Z Hq w s Hw HB Hk -> ->. assert (0 <= B) by apply Hw. assert (0 <= k) by apply Hw. assert (Q0 : 0 <= q) by apply Z.
  assert (QB : 0 <= q * B <= B) by (split; [apply Rmult_le_pos; lra|rewrite <- (Rmult_1_l B) at 2; apply Rmult_le_compat_r; lra]).
  assert (Qk : 0 <= q * k <= k) by (split; [apply Rmult_le_pos; lra|rewrite <- (Rmult_1_l k) at 2; apply Rmult_le_compat_r; lra]).
  pose proof (mul' _ C (H * real dt) (real dt) H q B 2 k (q * B) (q * k + 2 * B + k / 2000 + q * B + / 512) _ _ _ _ Z Hw ltac:(ring) okHd
    ltac:(lra) ltac:(num) ltac:(num) ltac:(num) ltac:(num) ltac:(lra)) as M.
  pose proof (rescale _ eps_range _ _ _ _ _ _ M CFL' okS_1) as M1. assert (0 <= B0) by apply I.
  apply (sub' _ C 1 B0 (q * B) 0 (q * k + 2 * B + k / 2000 + q * B + / 512)); auto; try num.
Qed.
Lemma back1 B0 i i' k w s : ap 1 B0 0 i i' -> B0 <= 1 -> ap H 1 k w s -> k <= 57 -> ap 1 2 64 (i - dt * w)%num (i' - real dt * s).
Proof.
  intros I HB Hw Hk. assert (0 <= k) by apply Hw.
  eapply (up _ C 1 (1 + 1 * 1)); [apply (back B0 i i' 1 1 k dt (real dt * s) _ I HB) with (w := w) (s := s); [|lra|exact Hw|lra|lra|ring|reflexivity]|lra|lra].
  rewrite Rmult_1_r. apply (up _ C (real dt) 1 0); [apply dt_ok; assumption|lra|lra].
Qed.
Lemma backq q B0 i i' B k w s k' : (2 <= q <= 6)%Z -> ap 1 B0 0 i i' -> B0 <= 1 -> ap H B k w s -> B <= 30 -> k <= 500000 -> / IZR q * k + 4 * B + k / 2000 + 2 <= k' ->
  ap 1 (1 + / IZR q * B) k' (i - dt / nofZ q * w)%num (i' - real dt / IZR q * s).
Proof.
  intros Hq I HB0 Hw HB Hk Hk'. assert (Q2 : 2 <= IZR q) by (apply IZR_le; lia). assert (/ IZR q <= / 2) by (apply Rinv_le_contravar; lra).
  eapply (up _ C 1 (1 + / IZR q * B)); [apply (back B0 i i' (/ IZR q) B k (dt / nofZ q)%num (real dt / IZR q * s) _ I HB0) with (w := w) (s := s);
    [apply frac; exact Hq|lra|exact Hw|exact HB|exact Hk|reflexivity|reflexivity]|apply Rle_refl|exact Hk'].
Qed.
(** the sum of the first two stages *)
Lemma sum2 w w' a a' p p' b b' q q' : ap H 1 57 w w' -> ap 1 2 64 a a' -> ap H 1 1050 p p' -> ap 1 2 64 b b' -> ap H 1 1050 q q' ->
  ap H 5 4440 (w + a * p + b * q)%num (w' + a' * p' + b' * q').
Proof.
  intros Hw Ha Hp Hb Hq.
  pose proof (mul' _ C H 1 H 2 1 64 1050 2 2185 _ _ _ _ Ha Hp ltac:(ring) okH ltac:(lra) ltac:(num) ltac:(num) ltac:(num) ltac:(num) ltac:(lra)) as P.
  pose proof (mul' _ C H 1 H 2 1 64 1050 2 2185 _ _ _ _ Hb Hq ltac:(ring) okH ltac:(lra) ltac:(num) ltac:(num) ltac:(num) ltac:(num) ltac:(lra)) as Q.
  pose proof (add' _ C H 1 2 57 2185 3 2246 _ _ _ _ Hw P ltac:(lra) ltac:(num) ltac:(num) ltac:(num) ltac:(lra)) as A.
  apply (add' _ C H 3 2 2246 2185 5 4440 _ _ _ _ A Q); num.
Qed.
(** the sum of all three *)
Lemma sum3 A A' a a' p p' b b' q q' : ap H 5 4440 A A' -> ap 1 (9 / 4) 1140 a a' -> ap H 1 18260 p p' -> ap 1 (9 / 4) 1140 b b' -> ap H 1 18260 q q' ->
  ap H 23 383200 (A + #4 * (a * p + b * q))%num (A' + 4 * (a' * p' + b' * q')).
Proof.
  intros HA Ha Hp Hb Hq.
  pose proof (mul' _ C H 1 H (9 / 4) 1 1140 18260 (9 / 4) 47320 _ _ _ _ Ha Hp ltac:(ring) okH ltac:(lra) ltac:(num) ltac:(num) ltac:(num) ltac:(num) ltac:(lra)) as P.
  pose proof (mul' _ C H 1 H (9 / 4) 1 1140 18260 (9 / 4) 47320 _ _ _ _ Hb Hq ltac:(ring) okH ltac:(lra) ltac:(num) ltac:(num) ltac:(num) ltac:(num) ltac:(lra)) as Q.
  pose proof (add' _ C H (9 / 4) (9 / 4) _ _ (9 / 2) 94645 _ _ _ _ P Q ltac:(lra) ltac:(num) ltac:(num) ltac:(num) ltac:(lra)) as D.
  pose proof (mul' _ C H 1 H 4 (9 / 2) 0 94645 18 378600 _ _ _ _ four D ltac:(ring) okH ltac:(lra) ltac:(num) ltac:(num) ltac:(num) ltac:(num) ltac:(lra)) as E.
  apply (add' _ C H 5 18 _ _ 23 383200 _ _ _ _ HA E); num.
Qed.
Lemma last B k a a' g b b' h : ap 1 B k a a' -> ap 1 B k b b' -> B <= 5 -> k <= 65000 -> is_finite g = true -> Rabs (real g) <= S -> is_finite h = true -> Rabs (real h) <= S ->
  ap S (2 * B) (2 * k + 4 * B + / 64) (a * g + b * h)%num (a' * real g + b' * real h).
Proof.
  intros Ha Hb HB Hk Fg Hg Fh Hh. assert (0 <= B) by apply Ha. assert (0 <= k) by apply Ha.
  pose proof (mul' _ C S 1 S B 1 k 0 B (k + B + / 512) _ _ _ _ Ha (self eps S g okSS Fg Hg) ltac:(ring) okSS ltac:(lra) ltac:(num) ltac:(num) ltac:(num) ltac:(num) ltac:(lra)) as P.
  pose proof (mul' _ C S 1 S B 1 k 0 B (k + B + / 512) _ _ _ _ Hb (self eps S h okSS Fh Hh) ltac:(ring) okSS ltac:(lra) ltac:(num) ltac:(num) ltac:(num) ltac:(num) ltac:(lra)) as Q.
  apply (add' _ C S B B _ _ _ _ _ _ _ _ P Q); num.
Qed.

Variables (G : flow b64) (F : flow R) (x y : b64).
Hypothesis HF : flow_tracks64 G F Tp X V L W eps.
Hypothesis HG : gradients_track64 G F Tp X H L' W' eps.
Hypothesis Fx : is_finite x = true.
Hypothesis Fy : is_finite y = true.
Hypothesis Hx : Rabs (real x) <= X.
Hypothesis Hy : Rabs (real y) <= X.
Let e := euler_back G x y t dt Tp.
Let e' := euler_back F (real x) (real y) t (real dt) (real Tp).
Let b := second_back G x y (fst e) (snd e) t dt Tp.
Let b' := second_back F (real x) (real y) (fst e') (snd e') t (real dt) (real Tp).
Lemma h8 : 0 <= 8 <= 32. Proof. lra. Qed.
Lemma grad_n g f : tracks64 g f Tp X H L' W' eps -> ap H 1 57 (g x y (time_at (t + 1) dt) Tp) (f (real x) (real y) (time_at (t + 1) (real dt)) (real Tp)).
Proof.
  intros T. replace 57 with (1 + 2 * 8 * 0 + 7 * 8) by ring.
  apply (vel_ok eps X H L' W' Ts 8 Tp eps_range HH h8 HL' HW' HLX' HWT' g f _ _ _ _ _ _ 0 1 1 1 T); [apply self; auto; apply okS_mod; exact HX|apply self; auto; apply okS_mod; exact HX| |lra|lra].
  eapply (up _ C); [apply (time_ok eps Ts dt t eps_range HT Fdt Hdt Ht HTs); lia|lra|lra].
Qed.
Lemma grad_1 g f : tracks64 g f Tp X H L' W' eps -> ap H 1 1050 (g (fst e) (snd e) (time_at t dt) Tp) (f (fst e') (snd e') (time_at t (real dt)) (real Tp)).
Proof.
  intros T. destruct (euler_ok eps X V L W Ts 8 dt Tp t eps_range HX HV HT Fdt Hdt CFL Ht HTs h8 HL HW HLX HWT G F x y HF Fx Fy Hx Hy) as (E1 & E2). fold e e' in E1, E2.
  eapply (up _ C); [apply (vel_ok eps X H L' W' Ts 8 Tp eps_range HH h8 HL' HW' HLX' HWT' g f _ _ _ _ _ _ _ 2 2 1 T E1 E2); [|lra|lra]|lra|lra].
  eapply (up _ C); [apply (time_ok eps Ts dt t eps_range HT Fdt Hdt Ht HTs); lia|lra|lra].
Qed.
Lemma grad_2 g f : tracks64 g f Tp X H L' W' eps -> ap H 1 18260 (g (fst b) (snd b) (time_mid t dt) Tp) (f (fst b') (snd b') (time_mid t (real dt)) (real Tp)).
Proof.
  intros T. destruct (second_ok eps X V L W Ts 8 dt Tp t eps_range HX HV HT Fdt Hdt CFL Ht HTs h8 HL HW HLX HWT G F x y HF Fx Fy Hx Hy) as (E1 & E2). fold e e' in E1, E2. fold b b' in E1, E2.
  eapply (up _ C); [apply (vel_ok eps X H L' W' Ts 8 Tp eps_range HH h8 HL' HW' HLX' HWT' g f _ _ _ _ _ _ _ 3 3 2 T E1 E2); [|lra|lra]|lra|lra].
  apply (mid_ok eps Ts dt t eps_range HT Fdt Hdt Ht HTs).
Qed.
Variables g h : b64.
Hypothesis Fg : is_finite g = true.
Hypothesis Fh : is_finite h = true.
Hypothesis Hg : Rabs (real g) <= S.
Hypothesis Hh : Rabs (real h) <= S.
Lemma super_ok rk3 : let r := SuperConsistentScheme G rk3 x y g h t dt Tp in let r' := SuperConsistentScheme F rk3 (real x) (real y) (real g) (real h) t (real dt) (real Tp) in
  ap S 10 (super_factor rk3) (fst r) (fst r') /\ ap S 10 (super_factor rk3) (snd r) (snd r').
Proof.
  destruct HG as (T1 & T2 & T3 & T4). intros r r'. subst r r'.
  pose proof (grad_n _ _ T1) as N1. pose proof (grad_n _ _ T2) as N2. pose proof (grad_n _ _ T3) as N3. pose proof (grad_n _ _ T4) as N4.
  pose proof (grad_1 _ _ T1) as P1. pose proof (grad_1 _ _ T2) as P2. pose proof (grad_1 _ _ T3) as P3. pose proof (grad_1 _ _ T4) as P4.
  pose proof (grad_2 _ _ T1) as Q1. pose proof (grad_2 _ _ T2) as Q2. pose proof (grad_2 _ _ T3) as Q3. pose proof (grad_2 _ _ T4) as Q4.
  pose proof (back1 _ _ _ _ _ _ one ltac:(lra) N1 ltac:(lra)) as A1. pose proof (back1 _ _ _ _ _ _ zero ltac:(lra) N2 ltac:(lra)) as A2.
  pose proof (back1 _ _ _ _ _ _ zero ltac:(lra) N3 ltac:(lra)) as A3. pose proof (back1 _ _ _ _ _ _ one ltac:(lra) N4 ltac:(lra)) as A4.
  destruct rk3.
  2: { unfold SuperConsistentScheme. cbn [fst snd]. split; (eapply (up _ C); [apply (last 2 64); [eassumption|eassumption|lra|lra|assumption..]|lra|unfold super_factor; lra]). }
  pose proof (sum2 _ _ _ _ _ _ _ _ _ _ N1 A1 P1 A3 P2) as B1. pose proof (sum2 _ _ _ _ _ _ _ _ _ _ N2 A2 P1 A4 P2) as B2.
  pose proof (sum2 _ _ _ _ _ _ _ _ _ _ N3 A1 P3 A3 P4) as B3. pose proof (sum2 _ _ _ _ _ _ _ _ _ _ N4 A2 P3 A4 P4) as B4.
  assert (I4 : 1 + / IZR 4 * 5 <= 9 / 4) by lra. assert (I6 : 1 + / IZR 6 * 23 <= 5) by lra.
  pose proof (up _ C _ _ _ (9 / 4) 1140 _ _ (backq 4 _ _ _ _ _ _ _ 1140 ltac:(lia) one ltac:(lra) B1 ltac:(lra) ltac:(lra) ltac:(lra)) I4 (Rle_refl _)) as D1.
  pose proof (up _ C _ _ _ (9 / 4) 1140 _ _ (backq 4 _ _ _ _ _ _ _ 1140 ltac:(lia) zero ltac:(lra) B2 ltac:(lra) ltac:(lra) ltac:(lra)) I4 (Rle_refl _)) as D2.
  pose proof (up _ C _ _ _ (9 / 4) 1140 _ _ (backq 4 _ _ _ _ _ _ _ 1140 ltac:(lia) zero ltac:(lra) B3 ltac:(lra) ltac:(lra) ltac:(lra)) I4 (Rle_refl _)) as D3.
  pose proof (up _ C _ _ _ (9 / 4) 1140 _ _ (backq 4 _ _ _ _ _ _ _ 1140 ltac:(lia) one ltac:(lra) B4 ltac:(lra) ltac:(lra) ltac:(lra)) I4 (Rle_refl _)) as D4.
  pose proof (sum3 _ _ _ _ _ _ _ _ _ _ B1 D1 Q1 D3 Q2) as E1. pose proof (sum3 _ _ _ _ _ _ _ _ _ _ B2 D2 Q1 D4 Q2) as E2.
  pose proof (sum3 _ _ _ _ _ _ _ _ _ _ B3 D1 Q3 D3 Q4) as E3. pose proof (sum3 _ _ _ _ _ _ _ _ _ _ B4 D2 Q3 D4 Q4) as E4.
  pose proof (up _ C _ _ _ 5 64200 _ _ (backq 6 _ _ _ _ _ _ _ 64200 ltac:(lia) one ltac:(lra) E1 ltac:(lra) ltac:(lra) ltac:(lra)) I6 (Rle_refl _)) as K1.
  pose proof (up _ C _ _ _ 5 64200 _ _ (backq 6 _ _ _ _ _ _ _ 64200 ltac:(lia) zero ltac:(lra) E2 ltac:(lra) ltac:(lra) ltac:(lra)) I6 (Rle_refl _)) as K2.
  pose proof (up _ C _ _ _ 5 64200 _ _ (backq 6 _ _ _ _ _ _ _ 64200 ltac:(lia) zero ltac:(lra) E3 ltac:(lra) ltac:(lra) ltac:(lra)) I6 (Rle_refl _)) as K3.
  pose proof (up _ C _ _ _ 5 64200 _ _ (backq 6 _ _ _ _ _ _ _ 64200 ltac:(lia) one ltac:(lra) E4 ltac:(lra) ltac:(lra) ltac:(lra)) I6 (Rle_refl _)) as K4.
  pose proof (last _ _ _ _ _ _ _ _ K1 K3 ltac:(lra) ltac:(lra) Fg Hg Fh Hh) as O1. pose proof (last _ _ _ _ _ _ _ _ K2 K4 ltac:(lra) ltac:(lra) Fg Hg Fh Hh) as O2.
  split; [refine (up _ C _ _ _ 10 _ _ _ O1 _ _)|refine (up _ C _ _ _ 10 _ _ _ O2 _ _)]; unfold super_factor; lra.
Qed.
End Super.

Theorem super64 : forall (G : flow b64) (F : flow R) (rk3 : bool) (x y g h dt Tp : b64) (t : Z) (eps X V L W H L' W' Ts S : R),
  u <= eps <= / 4096 -> moderate X -> moderate V -> moderate H -> moderate Ts -> moderate S -> is_finite dt = true -> moderate (real dt) ->
  V * real dt <= X -> H * real dt <= 1 -> (0 <= t)%Z -> (t + 1 < 2 ^ 32)%Z -> (IZR t + 1) * real dt <= Ts ->
  0 <= L -> 0 <= W -> L * X <= 8 * V -> W * Ts <= 8 * V -> 0 <= L' -> 0 <= W' -> L' * X <= 8 * H -> W' * Ts <= 8 * H ->
  flow_tracks64 G F Tp X V L W eps -> gradients_track64 G F Tp X H L' W' eps ->
  is_finite x = true -> is_finite y = true -> Rabs (real x) <= X -> Rabs (real y) <= X -> is_finite g = true -> is_finite h = true -> Rabs (real g) <= S -> Rabs (real h) <= S ->
  let r := SuperConsistentScheme G rk3 x y g h t dt Tp in let r' := SuperConsistentScheme F rk3 (real x) (real y) (real g) (real h) t (real dt) (real Tp) in
  (is_finite (fst r) = true /\ is_finite (snd r) = true) /\
  Rabs (real (fst r) - fst r') <= super_factor rk3 * eps * S /\ Rabs (real (snd r) - snd r') <= super_factor rk3 * eps * S.
Proof.
  intros. destruct (super_ok eps X V L W H L' W' Ts S dt Tp t) with (G := G) (F := F) (x := x) (y := y) (g := g) (h := h) (rk3 := rk3) as ((_ & _ & _ & A1 & _ & A2) & (_ & _ & _ & B1 & _ & B2)); auto.
Qed.
