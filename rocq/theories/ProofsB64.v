(** The time loop in binary64 arithmetic. *)
From Coq Require Import ZArith List Reals Lra Lia Bool.
From Flocq Require Import Core BinarySingleNaN Plus_error Relative.
From Verif Require Import Base Num NumB64 ModelVec ModelApp SpecApp.
Open Scope R_scope.

Notation fe := (SpecFloat.fexp 53 1024).
Notation RN x := (round radix2 fe ZnearestE x).
#[local] Instance fe_valid : Valid_exp fe := fexp_correct 53 1024 prec53.

Lemma RN_le x y : x <= y -> RN x <= RN y.
Proof. apply round_le; typeclasses eauto. Qed.
Lemma RN_id x : generic_format radix2 fe x -> RN x = x.
Proof. apply round_generic; typeclasses eauto. Qed.
Lemma fmt_bpow e : (-1074 <= e)%Z -> generic_format radix2 fe (bpow radix2 e).
Proof. intros H. apply generic_format_bpow. unfold SpecFloat.fexp, SpecFloat.emin. lia. Qed.
Lemma fmt_B2R (x : b64) : generic_format radix2 fe (B2R x).
Proof. apply generic_format_B2R. Qed.
Lemma RN_bpow e : (-1074 <= e)%Z -> RN (bpow radix2 e) = bpow radix2 e.
Proof. intros H. apply RN_id, fmt_bpow, H. Qed.
Lemma RN_0 : RN 0 = 0.
Proof. apply round_0. typeclasses eauto. Qed.

Lemma plus_cases (x y : b64) : is_finite x = true -> is_finite y = true -> 0 <= B2R x -> 0 < B2R y ->
  (Bplus mode_NE x y = B754_infinity false) \/
  (is_finite (Bplus mode_NE x y) = true /\ B2R (Bplus mode_NE x y) = RN (B2R x + B2R y)).
Proof.
  intros Fx Fy Hx Hy. pose proof (Bplus_correct 53 1024 prec53 emax1024 mode_NE x y Fx Fy) as H. cbn [round_mode] in H.
  destruct (Rlt_bool _ _).
  - right. destruct H as (A & B & _). auto.
  - left. destruct H as (A & B).
    assert (S : Bsign y = false).
    { destruct y as [s| | |s m e He]; try discriminate; auto. cbn in Hy. lra. destruct s; auto. exfalso. cbn in Hy.
      pose proof (F2R_lt_0 radix2 {| Fnum := Z.neg m; Fexp := e |} eq_refl). lra. }
    rewrite B, S in A. cbn in A.
    destruct (Bplus mode_NE x y) as [s|s| |s m e He]; cbn in A; try discriminate. congruence.
Qed.

Lemma ltb_inf (t : b64) : is_finite t = true -> Bltb t (B754_infinity false) = true.
Proof. destruct t as [[]| | |[]]; try discriminate; reflexivity. Qed.

Lemma loop_mono {T S} {NT : Num T} (body : T -> S -> outcome S) dt e : forall f f' t c s r, (f <= f')%nat ->
  time_loop f body dt e t c s = Some r -> time_loop f' body dt e t c s = Some r.
Proof.
  induction f as [|f IH]; intros f' t c s r L H; [discriminate|]. destruct f' as [|f']; [lia|]. cbn [time_loop] in *.
  destruct (body (t + dt)%num s); auto. destruct (stop_test _ _); auto. apply IH; auto. lia.
Qed.

Lemma loop_step {S} (body : b64 -> S -> outcome S) dt e fuel t c s s' : body (Bplus mode_NE t dt) s = Ok s' ->
  time_loop (Datatypes.S fuel) body dt e t c s =
  if stop_test (Bplus mode_NE t dt) e then Some (Ok (Bplus mode_NE t dt, (c + 1)%Z, s')) else time_loop fuel body dt e (Bplus mode_NE t dt) (c + 1) s'.
Proof. intros H. cbn [time_loop]. cbn [nadd NumB64]. rewrite H. reflexivity. Qed.

Lemma zero64 : is_finite (b64_make 0 0) = true /\ B2R (b64_make 0 0) = 0.
Proof. split; reflexivity. Qed.

Lemma vsmall64 : is_finite (VSMALL : b64) = true /\ B2R (VSMALL : b64) <= bpow radix2 (-33).
Proof.
  split; [vm_compute; reflexivity|]. unfold VSMALL. cbn [ndiv nofZ NumB64].
  assert (E1 : B2R (b64_make 1 0) = 1). { cbn. unfold F2R. cbn. lra. }
  assert (E2 : B2R (b64_make 10000000000 0) = 10000000000).
  { cbn. unfold F2R. cbn. lra. }
  pose proof (Bdiv_correct 53 1024 prec53 emax1024 mode_NE (b64_make 1 0) (b64_make 10000000000 0)) as H.
  rewrite E1, E2 in H. specialize (H ltac:(lra)). cbn [round_mode] in H.
  assert (L : RN (1 / 10000000000) <= bpow radix2 (-33)).
  { rewrite <- (RN_bpow (-33)) by lia. apply RN_le. change (bpow radix2 (-33)) with (/ 8589934592). lra. }
  assert (L0 : 0 <= RN (1 / 10000000000)) by (rewrite <- RN_0; apply RN_le; lra).
  destruct (Rlt_bool_spec (Rabs (RN (1 / 10000000000))) (bpow radix2 1024)) as [K|K].
  - destruct H as (-> & _). exact L.
  - exfalso. rewrite Rabs_pos_eq in K by exact L0. assert (bpow radix2 (-33) < bpow radix2 1024) by (apply bpow_lt; lia). lra.
Qed.

