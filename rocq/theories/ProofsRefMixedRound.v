(** The mixed derivatives of the reference programs in double arithmetic. *)
From Coq Require Import ZArith List Bool String Lia Reals Lra.
From Flocq Require Import Core BinarySingleNaN Mult_error.
From Verif Require Import Base Num NumB64 ModelVec ModelGrid ModelRefMath ModelRefMem ModelRef SpecGrid SpecB64 SpecGradient SpecRound SpecRef SpecRefRun SpecRefStep SpecRefMixed
  ProofsRefMem ProofsRefRun ProofsRefMix ProofsRefStep ProofsRefApi ProofsB64 ProofsB64Ops ProofsRound ProofsRoundHermite ProofsRefRound ProofsRefRunCases ProofsRefStepCases ProofsSensitiveCases SpecRefStepRound ProofsRefStepRoundCases ProofsRefMixed.
Import ListNotations.
Open Scope R_scope.

Notation ap := (ap64 u).
Notation C := (calc64 u ur).
Ltac num := unfold lim20 in *; lra.

(** twice a moderate number is exact *)
Lemma twice_ok (d : b64) : is_finite d = true -> moderate (real d) -> real (#2 * d)%num = 2 * real d.
Proof.
  intros Fd Hd. destruct (int64 2) as (F2 & E2); [cbn; lia|]. pose proof (Bmult_correct 53 1024 prec53 emax1024 mode_NE (b64_make 2 0) d) as Q. cbn [round_mode] in Q.
  rewrite E2 in Q. assert (G : generic_format radix2 fe (2 * B2R d)).
  { replace (2 * B2R d) with (B2R d * bpow radix2 1) by (change (bpow radix2 1) with 2; ring). apply (mult_bpow_pos_exact_FLT radix2 (-1074) 53); [apply fmt_B2R|lia]. }
  rewrite round_generic in Q; [|typeclasses eauto|exact G]. rewrite Rlt_bool_true in Q.
  - destruct Q as (Q & _). exact Q.
  - destruct Hd as (A & B). unfold real in *. pose proof (bpow_gt_0 radix2 (-200)). rewrite Rabs_pos_eq by lra. apply Rle_lt_trans with (bpow radix2 1 * bpow radix2 200); [change (bpow radix2 1) with 2; lra|].
    rewrite <- bpow_plus. apply bpow_lt. lia.
Qed.
(** a quotient by a number that is at least w *)
Lemma quot S w B k z r (d : b64) : ap S B k z r -> 0 < w -> w <= real d -> okS (S * / w) -> B <= 100 -> k <= 100 -> ap (S * / w) B (k + B + 1) (z / d)%num (r / real d).
Proof.
  intros (HS & P1 & P2 & Fz & Q & E) Hw Hd HQ LB LK. pose proof (okS_pos _ HS) as Sp. pose proof (okS_pos _ HQ) as Qp. pose proof u_pos as Up. pose proof u_val as Uv.
  assert (D0 : 0 < real d) by lra. assert (I : 0 < / real d <= / w) by (split; [apply Rinv_0_lt_compat; exact D0|apply Rinv_le_contravar; lra]).
  assert (A1 : Rabs (r / real d) <= B * (S * / w)).
  { unfold Rdiv. rewrite Rabs_mult, (Rabs_pos_eq (/ real d)) by lra. rewrite <- Rmult_assoc. apply Rmult_le_compat; auto using Rabs_pos; lra. }
  assert (A2 : Rabs (B2R z / real d - r / real d) <= k * u * (S * / w)).
  { replace (B2R z / real d - r / real d) with ((B2R z - r) * / real d) by (unfold Rdiv; ring). rewrite Rabs_mult, (Rabs_pos_eq (/ real d)) by lra. rewrite <- Rmult_assoc.
    apply Rmult_le_compat; auto using Rabs_pos; lra. }
  assert (A3 : Rabs (B2R z / real d) <= (B + k * u) * (S * / w)).
  { replace (B2R z / real d) with (r / real d + (B2R z / real d - r / real d)) by ring. eapply Rle_trans; [apply Rabs_triang|]. lra. }
  assert (KU : 0 <= k * u <= / 8) by (split; [apply Rmult_le_pos; lra|rewrite Uv; lra]).
  destruct (div64_abs z d Fz) as (F & E').
  { unfold real in D0. lra. }
  { eapply Rle_trans; [exact A3|]. apply huge; [exact HQ| |lra]. apply Rle_trans with (bpow radix2 10); [change (bpow radix2 10) with 1024; lra|apply bpow_le; lia]. }
  split; [exact HQ|]. split; [exact P1|]. split; [lra|]. split; [exact F|]. split; [exact A1|].
  change (z / d)%num with (Bdiv mode_NE z d). set (q := B2R (Bdiv mode_NE z d)) in *. fold (real d) in E'.
  assert (T : bpow radix2 (-1000) <= / 8 * u * (S * / w)).
  { destruct HQ as (H & _). apply Rle_trans with (/ 8 * u * bpow radix2 (-900)); [|apply Rmult_le_compat_l; lra].
    unfold u. change (/ 8) with (bpow radix2 (-3)). rewrite <- !bpow_plus. apply bpow_le. lia. }
  set (v := B2R z / real d) in *. set (W := S * / w) in *. clearbody q v W. set (ro := r / real d) in *. clearbody ro.
  replace (q - ro) with ((q - v) + (v - ro)) by ring. eapply Rle_trans; [apply Rabs_triang|].
  assert (U1 : u * Rabs v <= u * ((B + k * u) * W)) by (apply Rmult_le_compat_l; lra).
  assert (U2 : u * (k * u * W) <= / 8 * u * W).
  { replace (u * (k * u * W)) with (k * u * (u * W)) by ring. replace (/ 8 * u * W) with (/ 8 * (u * W)) by ring. apply Rmult_le_compat_r; [apply Rmult_le_pos; lra|lra]. }
  assert (U3 : 0 <= u * W) by (apply Rmult_le_pos; lra). lra.
Qed.

Section Mixed.
Variables (nx ny k l : Z) (dx dy : b64) (px py : Z -> Z -> b64) (S w : R).
Hypothesis Nx : (2 <= nx)%Z.
Hypothesis Ny : (2 <= ny)%Z.
Hypothesis Fdx : is_finite dx = true.
Hypothesis Fdy : is_finite dy = true.
Hypothesis Hdx : moderate (real dx).
Hypothesis Hdy : moderate (real dy).
Hypothesis HS : moderate S.
Hypothesis Hw : moderate w.
Hypothesis Wx : w <= real dx.
Hypothesis Wy : w <= real dy.
Hypothesis Hp : forall k' l', uses nx ny k l k' l' -> (is_finite (px k' l') = true /\ Rabs (real (px k' l')) <= S) /\ (is_finite (py k' l') = true /\ Rabs (real (py k' l')) <= S).
Lemma okQ : okS (S * / w).
Proof. pose proof (okS_prod _ _ _ _ _ _ HS (okS_inv _ _ _ Hw)) as Q. cbn [Z.add Z.opp] in Q. split; [eapply Rle_trans; [|apply Q]|eapply Rle_trans; [apply Q|]]; apply bpow_le; lia. Qed.
Lemma w0 : 0 < w. Proof. apply (okS_pos _ (okS_mod _ Hw)). Qed.
Lemma leaf (z : b64) : is_finite z = true /\ Rabs (real z) <= S -> ap S 1 0 z (real z).
Proof.
  intros (F & H). split; [apply okS_mod; exact HS|]. split; [lra|]. split; [lra|]. split; [exact F|]. split; [lra|]. unfold real. rewrite Rminus_diag_eq by reflexivity. rewrite Rabs_R0. lra.
Qed.
Lemma gap (a b : b64) : is_finite a = true /\ Rabs (real a) <= S -> is_finite b = true /\ Rabs (real b) <= S -> ap S 2 (21 / 10) (a - b)%num (real a - real b).
Proof. intros Ha Hb. eapply (sub' _ C); [apply leaf; exact Ha|apply leaf; exact Hb|..]; num. Qed.
Lemma slope (a b d : b64) : is_finite a = true /\ Rabs (real a) <= S -> is_finite b = true /\ Rabs (real b) <= S -> w <= real d ->
  ap (S * / w) 2 (51 / 10) ((a - b) / d)%num ((real a - real b) / real d).
Proof. intros Ha Hb Hd. eapply (up _ C); [apply (quot _ _ _ _ _ _ _ (gap a b Ha Hb) w0 Hd okQ)|..]; lra. Qed.
Lemma sum (a b : b64) ra rb : ap (S * / w) 2 (51 / 10) a ra -> ap (S * / w) 2 (51 / 10) b rb -> ap (S * / w) 4 (143 / 10) (a + b)%num (ra + rb).
Proof. intros Ha Hb. eapply (add' _ C); [exact Ha|exact Hb|..]; num. Qed.
Lemma three_quarters : ap 1 (3 / 4) 0 (#3 / #4)%num (3 / 4).
Proof.
  assert (V : B2SF ((#3 / #4)%num : b64) = SpecFloat.S754_finite false 6755399441055744 (-53)) by (vm_compute; reflexivity). destruct (real_of _ _ V eq_refl) as (F & E).
  split; [apply okS_1|]. split; [lra|]. split; [lra|]. split; [exact F|]. split; [rewrite Rabs_pos_eq; lra|].
  unfold real in E. rewrite E. cbn [SF2R cond_Zopp]. unfold F2R. cbn [Fnum Fexp]. change (bpow radix2 (-53)) with (/ 9007199254740992). rewrite Rminus_diag_eq by lra. rewrite Rabs_R0. lra.
Qed.
Lemma one_quarter : ap 1 (1 / 4) 0 (#1 / #4)%num (1 / 4).
Proof.
  assert (V : B2SF ((#1 / #4)%num : b64) = SpecFloat.S754_finite false 4503599627370496 (-54)) by (vm_compute; reflexivity). destruct (real_of _ _ V eq_refl) as (F & E).
  split; [apply okS_1|]. split; [lra|]. split; [lra|]. split; [exact F|]. split; [rewrite Rabs_pos_eq; lra|].
  unfold real in E. rewrite E. cbn [SF2R cond_Zopp]. unfold F2R. cbn [Fnum Fexp]. change (bpow radix2 (-54)) with (/ 18014398509481984). rewrite Rminus_diag_eq by lra. rewrite Rabs_R0. lra.
Qed.
Lemma comb_ok (a b c d : b64) ra rb rc rd : ap (S * / w) 2 (51 / 10) a ra -> ap (S * / w) 2 (51 / 10) b rb -> ap (S * / w) 2 (51 / 10) c rc -> ap (S * / w) 2 (51 / 10) d rd ->
  ap (S * / w) 4 32 (comb a b c d) (comb ra rb rc rd).
Proof.
  intros Ha Hb Hc Hd. pose proof okQ as Q. unfold comb.
  assert (M1 : ap (S * / w) 3 14 (#3 / #4 * (a + b))%num (3 / 4 * (ra + rb))).
  { eapply (mul' _ C) with (S1 := 1) (S2 := S * / w); [apply three_quarters|apply (sum _ _ _ _ Ha Hb)|..]; try num; try (ring); try exact Q. }
  assert (M2 : ap (S * / w) 1 5 (#1 / #4 * (c + d))%num (1 / 4 * (rc + rd))).
  { eapply (mul' _ C) with (S1 := 1) (S2 := S * / w); [apply one_quarter|apply (sum _ _ _ _ Hc Hd)|..]; try num; try (ring); try exact Q. }
  eapply (sub' _ C); [exact M1|exact M2|..]; num.
Qed.
Lemma halved (a b : b64) ra rb : ap (S * / w) 2 (51 / 10) a ra -> ap (S * / w) 2 (51 / 10) b rb -> ap (S * / w) 4 32 ((a + b) / #2)%num ((ra + rb) / 2).
Proof.
  intros Ha Hb. destruct (int64 2) as (F2 & E2); [cbn; lia|]. pose proof okQ as Q.
  pose proof (quot (S * / w) 1 4 (143 / 10) _ _ (b64_make 2 0) (sum _ _ _ _ Ha Hb) Rlt_0_1) as H. unfold real in H. rewrite E2 in H. rewrite Rinv_1, Rmult_1_r in H.
  specialize (H ltac:(lra) Q ltac:(lra) ltac:(lra)). eapply (up _ C); [exact H|..]; lra.
Qed.
Lemma mixed_ok : (0 <= k < ny)%Z -> (0 <= l < nx)%Z ->
  ap (S * / w) 4 32 (mixed_val nx ny dx dy px py k l) (mixed_val nx ny (real dx) (real dy) (fun k l => real (px k l)) (fun k l => real (py k l)) k l).
Proof.
  intros Hk Hl. pose proof w0 as W0. pose proof (twice_ok dx Fdx Hdx) as Tx. pose proof (twice_ok dy Fdy Hdy) as Ty.
  assert (SX : forall a b c d, uses nx ny k l a b -> uses nx ny k l c d -> ap (S * / w) 2 (51 / 10) ((py a b - py c d) / dx)%num ((real (py a b) - real (py c d)) / real dx)).
  { intros a b c d Ha Hb. apply slope; [apply Hp; assumption|apply Hp; assumption|exact Wx]. }
  assert (SY : forall a b c d, uses nx ny k l a b -> uses nx ny k l c d -> ap (S * / w) 2 (51 / 10) ((px a b - px c d) / dy)%num ((real (px a b) - real (px c d)) / real dy)).
  { intros a b c d Ha Hb. apply slope; [apply Hp; assumption|apply Hp; assumption|exact Wy]. }
  assert (CX : (0 < l < nx - 1)%Z -> ap (S * / w) 2 (51 / 10) ((py k (l + 1)%Z - py k (l - 1)%Z) / (#2 * dx))%num ((real (py k (l + 1)%Z) - real (py k (l - 1)%Z)) / (2 * real dx))).
  { intros H. rewrite <- Tx. apply slope; [apply Hp; unfold uses; lia|apply Hp; unfold uses; lia|rewrite Tx; lra]. }
  assert (CY : (0 < k < ny - 1)%Z -> ap (S * / w) 2 (51 / 10) ((px (k + 1)%Z l - px (k - 1)%Z l) / (#2 * dy))%num ((real (px (k + 1)%Z l) - real (px (k - 1)%Z l)) / (2 * real dy))).
  { intros H. rewrite <- Ty. apply slope; [apply Hp; unfold uses; lia|apply Hp; unfold uses; lia|rewrite Ty; lra]. }
  assert (UP : forall z r, ap (S * / w) 2 (51 / 10) z r -> ap (S * / w) 4 32 z r) by (intros z r H; eapply (up _ C); [exact H|lra|lra]).
  unfold mixed_val. cbv zeta. unfold sx, sy.
  destruct (Z.eqb_spec k 0) as [K0|K0]; destruct (Z.eqb_spec k (ny - 1)) as [K1|K1]; destruct (Z.eqb_spec l 0) as [L0|L0]; destruct (Z.eqb_spec l (nx - 1)) as [L1|L1];
    cbn [orb andb negb]; try lia; try (apply UP, CX; lia); try (apply UP, CY; lia); try (apply comb_ok; first [apply SX; unfold uses; lia|apply SY; unfold uses; lia]).
  apply (halved _ _ _ _ (CX ltac:(lia)) (CY ltac:(lia))).
Qed.
End Mixed.
Lemma mixed_rounding nx ny (dx dy : b64) px py S w k l : (2 <= nx)%Z -> (2 <= ny)%Z -> is_finite dx = true -> is_finite dy = true -> moderate (real dx) -> moderate (real dy) -> moderate S -> moderate w ->
  w <= real dx -> w <= real dy ->
  (forall k' l', uses nx ny k l k' l' -> (is_finite (px k' l') = true /\ Rabs (real (px k' l')) <= S) /\ (is_finite (py k' l') = true /\ Rabs (real (py k' l')) <= S)) ->
  (0 <= k < ny)%Z -> (0 <= l < nx)%Z -> let v := mixed_val nx ny dx dy px py k l in
  is_finite v = true /\ Rabs (real v - mixed_val nx ny (real dx) (real dy) (fun k l => real (px k l)) (fun k l => real (py k l)) k l) <= bpow radix2 (-48) * (S / w).
Proof.
  intros N1 N2 F1 F2 M1 M2 MS Mw W1 W2 Hp Hk Hl v. destruct (mixed_ok nx ny k l dx dy px py S w N1 N2 F1 F2 M1 M2 MS Mw W1 W2 Hp Hk Hl) as (_ & _ & _ & F & _ & E).
  split; [exact F|]. replace (bpow radix2 (-48)) with (32 * u) by (unfold u; change 32 with (bpow radix2 5); rewrite <- bpow_plus; reflexivity). exact E.
Qed.
Lemma mixed_run {T} {NT : Num T} nx ny (dx dy : T) px py m : (2 <= nx < 4294967296)%Z -> (2 <= ny < 4294967296)%Z -> holds Psix ny nx px m -> holds Psiy ny nx py m -> present Psixy ny nx m ->
  exists m', runs (update_mixed_derivatives nx ny dx dy 0 nx) (mixed_vars m) = Ok m' /\ only_changes [Psixy; Dxy1; Dxy2; D1; D2; D3; D4] m m' /\ holds Psixy ny nx (mixed_val nx ny dx dy px py) m'.
Proof.
  intros N1 N2 H1 H2 H3.
  destruct (mixed_loop nx ny dx dy _ _ 0 nx (mixed_vars m) N1 N2 ltac:(lia) ltac:(lia)
    (fun i j Hi Hj => eq_trans (mixed_vars_other Psix m i j eq_refl) (H1 i j Hi Hj))
    (fun i j Hi Hj => eq_trans (mixed_vars_other Psiy m i j eq_refl) (H2 i j Hi Hj))
    (fun i j Hi Hj => eq_ind_r (fun v => v <> None) (H3 i j Hi Hj) (mixed_vars_other Psixy m i j eq_refl))
    (fun a Ha => mixed_vars_var a m Ha)) as (m' & R' & Hm).
  exists m'. split; [exact R'|]. split.
  - intros a i j He. rewrite Hm by (destruct a; cbn in He |- *; congruence).
    rewrite mixed_vars_other by (destruct a; cbn in He |- *; congruence). destruct (in_rng ny 0 nx i j); destruct a; cbn in He; congruence.
  - intros i j Hi Hj. rewrite Hm by reflexivity. rewrite in_rng_in by lia. reflexivity.
Qed.
Lemma held_present {T} {NT : Num T} a ny nx f (m : mem T) : holds a ny nx f m -> present a ny nx m.
Proof. intros H i j Hi Hj. rewrite (H i j Hi Hj). discriminate. Qed.

(** Slopes at the nodes in finite doubles of size at most S, grid steps that are at least w. *)
Theorem mixed_both : forall nx ny (dx dy : b64) (px py : Z -> Z -> b64) S w m m0, (2 <= nx < 4294967296)%Z -> (2 <= ny < 4294967296)%Z -> steps64 dx dy w -> slopes64 nx ny px py S ->
  holds Psix ny nx px m -> holds Psiy ny nx py m -> present Psixy ny nx m ->
  holds Psix ny nx (fun k l => real (px k l)) m0 -> holds Psiy ny nx (fun k l => real (py k l)) m0 -> present Psixy ny nx m0 ->
  exists m' m0', runs (update_mixed_derivatives nx ny dx dy 0 nx) (mixed_vars m) = Ok m' /\ runs (update_mixed_derivatives nx ny (real dx) (real dy) 0 nx) (mixed_vars m0) = Ok m0' /\
    only_changes [Psixy; Dxy1; Dxy2; D1; D2; D3; D4] m m' /\
    forall k l, (0 <= k < ny)%Z -> (0 <= l < nx)%Z -> exists v r, m' (Psixy, k, l) = Some (ModelRefMem.D v) /\ m0' (Psixy, k, l) = Some (ModelRefMem.D r) /\
      is_finite v = true /\ Rabs (real v - r) <= bpow radix2 (-48) * (S / w).
Proof.
  intros nx ny dx dy px py S w m m0 N1 N2 (F1 & F2 & M1 & M2 & Mw & W1 & W2) (MS & Hp) A1 A2 A3 B1 B2 B3.
  destruct (mixed_run nx ny dx dy px py m N1 N2 A1 A2 A3) as (m' & E & Ch & Hm). destruct (mixed_run nx ny (real dx) (real dy) _ _ m0 N1 N2 B1 B2 B3) as (m0' & E0 & _ & Hm0).
  exists m', m0'. split; [exact E|]. split; [exact E0|]. split; [exact Ch|]. intros k l Hk Hl. eexists _, _. split; [apply (Hm k l Hk Hl)|]. split; [apply (Hm0 k l Hk Hl)|].
  apply (mixed_rounding nx ny dx dy px py S w k l); try assumption; try lia. intros k' l' (_ & _ & Q1 & Q2). apply Hp; assumption.
Qed.
Theorem mixed_accuracy64 : forall nx ny x0 y0 (dx dy : b64) D M e (px py : Z -> Z -> b64) S w m, (2 <= nx < 4294967296)%Z -> (2 <= ny < 4294967296)%Z -> steps64 dx dy w -> slopes64 nx ny px py S ->
  let X := even_nodes x0 (real dx) in let Y := even_nodes y0 (real dy) in smooth2 D -> bounded_on (X 0%Z) (X (nx - 1)%Z) (Y 0%Z) (Y (ny - 1)%Z) D M ->
  holds Psix ny nx px m -> holds Psiy ny nx py m -> present Psixy ny nx m ->
  (forall k l, (0 <= k < ny)%Z -> (0 <= l < nx)%Z -> Rabs (real (px k l) - D 1%nat 0%nat (X l) (Y k)) <= e /\ Rabs (real (py k l) - D 0%nat 1%nat (X l) (Y k)) <= e) ->
  exists m', runs (update_mixed_derivatives nx ny dx dy 0 nx) (mixed_vars m) = Ok m' /\ only_changes [Psixy; Dxy1; Dxy2; D1; D2; D3; D4] m m' /\
    forall k l, (0 <= k < ny)%Z -> (0 <= l < nx)%Z -> exists v, m' (Psixy, k, l) = Some (ModelRefMem.D v) /\ is_finite v = true /\
      Rabs (real v - D 1%nat 1%nat (X l) (Y k)) <= mixed_bound nx ny k l (real dx) (real dy) M e + bpow radix2 (-48) * (S / w).
Proof.
  intros nx ny x0 y0 dx dy D M e px py S w m N1 N2 (F1 & F2 & M1 & M2 & Mw & W1 & W2) (MS & Hp) X Y SD HM A1 A2 A3 Hd.
  destruct (mixed_run nx ny dx dy px py m N1 N2 A1 A2 A3) as (m' & E & Ch & Hm). exists m'. split; [exact E|]. split; [exact Ch|].
  intros k l Hk Hl. eexists. split; [apply (Hm k l Hk Hl)|].
  destruct (mixed_rounding nx ny dx dy px py S w k l ltac:(lia) ltac:(lia) F1 F2 M1 M2 MS Mw W1 W2 (fun k' l' U => Hp k' l' (proj1 (proj2 (proj2 U))) (proj2 (proj2 (proj2 U)))) Hk Hl) as (F & B). split; [exact F|].
  assert (N : Rabs (mixed_val nx ny (real dx) (real dy) (fun k l => real (px k l)) (fun k l => real (py k l)) k l - D 1%nat 1%nat (X l) (Y k)) <= mixed_bound nx ny k l (real dx) (real dy) M e).
  { apply mixed_near; try assumption; try lia; try (apply (okS_pos _ (okS_mod _ M1))); try (apply (okS_pos _ (okS_mod _ M2))). intros k' l' (_ & _ & Q1 & Q2). apply Hd; assumption. }
  revert B N. generalize (mixed_val nx ny (real dx) (real dy) (fun k l => real (px k l)) (fun k l => real (py k l)) k l). generalize (real (mixed_val nx ny dx dy px py k l)). intros v r B N.
  replace (v - D 1%nat 1%nat (X l) (Y k)) with ((v - r) + (r - D 1%nat 1%nat (X l) (Y k))) by ring. eapply Rle_trans; [apply Rabs_triang|]. lra.
Qed.

(** *** the unit square with 5 by 5 nodes and the slopes of sin x sin y as multiples of 2^-40 *)
Lemma held_case : let X := even_nodes 0 (/ 4) in let h : b64 := b64_make 1 (-2) in let px k l := near64 (ripple 1 0 (X l) (X k)) in let py k l := near64 (ripple 0 1 (X l) (X k)) in
  real h = / 4 /\ steps64 h h (/ 4) /\ slopes64 5 5 px py 2 /\ smooth2 ripple /\ bounded_on (X 0%Z) (X 4%Z) (X 0%Z) (X 4%Z) ripple (fun _ _ => 1) /\
  (exists m, holds Psix 5 5 px m /\ holds Psiy 5 5 py m /\ present Psixy 5 5 m) /\
  (exists m, holds Psix 5 5 (fun k l => real (px k l)) m /\ holds Psiy 5 5 (fun k l => real (py k l)) m /\ present Psixy 5 5 m) /\
  forall k l, Rabs (real (px k l) - ripple 1 0 (X l) (X k)) <= bpow radix2 (-41) /\ Rabs (real (py k l) - ripple 0 1 (X l) (X k)) <= bpow radix2 (-41).
Proof.
  intros X h px py. assert (V : B2SF h = SpecFloat.S754_finite false 4503599627370496 (-54)) by (vm_compute; reflexivity). destruct (real_of _ _ V eq_refl) as (F & E).
  assert (E4 : real h = / 4).
  { rewrite E. cbn [SF2R cond_Zopp]. unfold F2R. cbn [Fnum Fexp]. change (bpow radix2 (-54)) with (/ 18014398509481984). lra. }
  assert (M4 : moderate (/ 4)) by (split; [apply (bpow_le radix2 (-200) (-2)); lia|apply Rle_trans with 1; [lra|apply (bpow_le radix2 0 200); lia]]).
  split; [exact E4|]. split; [unfold steps64; rewrite E4; repeat split; try exact F; try apply M4; lra|]. split.
  { split; [split; [apply Rle_trans with 1; [apply (bpow_le radix2 (-200) 0); lia|lra]|apply (bpow_le radix2 1 200); lia]|]. intros k l _ _. split; apply near64_size, ripple_bound. }
  split; [apply ripple_smooth|]. split; [intros i j p q _ _ _ _; apply ripple_bound|]. 
  assert (NR : forall k l, Rabs (real (px k l) - ripple 1 0 (X l) (X k)) <= bpow radix2 (-41) /\ Rabs (real (py k l) - ripple 0 1 (X l) (X k)) <= bpow radix2 (-41)).
  { intros k l. split; apply near64_ok, ripple_bound. }
  clearbody px py. split.
  { destruct (state_any quarter (mkFields px px py py)) as (m & _ & (_ & H1 & H2 & H3 & _)). exists m. split; [exact H1|]. split; [exact H2|]. exact (held_present _ _ _ _ _ H3). }
  split; [|exact NR].
  destruct (case_state (real_settings quarter) (real_fields (mkFields px px py py))) as (m & _ & (_ & H1 & H2 & H3 & _)). exists m. split; [exact H1|]. split; [exact H2|]. exact (held_present _ _ _ _ _ H3).
Qed.
