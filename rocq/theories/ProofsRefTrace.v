(** The back-trace and the gradient schemes of the reference code over the reals. *)
From Coq Require Import ZArith List Reals Lra Lia.
From Coquelicot Require Import Coquelicot.
From Verif Require Import Base Num NumB64 ModelVec ModelInterp SpecInterp ProofsHermite ProofsHermiteCell
  ModelRefMath SpecRef ProofsRefHermite ProofsRefMath.
Open Scope R_scope.

Lemma time_at_R t dt : step_number t -> time_at t dt = IZR t * dt.
Proof. intros H. unfold time_at, u32, step_number in *. nr. rewrite Z.mod_small by lia. reflexivity. Qed.
Lemma time_at_R1 t dt : step_number t -> time_at (t + 1) dt = (IZR t + 1) * dt.
Proof. intros H. unfold time_at, u32, step_number in *. nr. rewrite Z.mod_small by lia. rewrite plus_IZR. reflexivity. Qed.

(** *** velocities that depend on time only *)
Lemma same_derivative (f g : R -> R) (d : R -> R) :
  (forall s, derivable_pt_lim f s (d s)) -> (forall s, derivable_pt_lim g s (d s)) ->
  forall s s', f s - f s' = g s - g s'.
Proof.
  intros Hf Hg s s'.
  assert (D : forall u, is_derive (fun s => f s - g s) u 0).
  { intros u. apply is_derive_Reals. replace 0 with (d u - d u) by ring. apply (derivable_pt_lim_minus f g u (d u) (d u)); auto. }
  assert (E : (fun s => f s - g s) s' = (fun s => f s - g s) s).
  { destruct (Rtotal_order s s') as [H|[H|H]].
    - symmetry. apply (eq_is_derive (fun s => f s - g s)); [|exact H]. intros u _. apply D.
    - subst. reflexivity.
    - apply (eq_is_derive (fun s => f s - g s)); [|exact H]. intros u _. apply D. }
  cbn in E. lra.
Qed.

Definition quartic (a : nat -> R) (s : R) : R := a 0%nat * s + a 1%nat * s ^ 2 / 2 + a 2%nat * s ^ 3 / 3 + a 3%nat * s ^ 4 / 4.
Lemma quartic_derive a s : derivable_pt_lim (quartic a) s (cubic a s).
Proof. apply is_derive_Reals. unfold quartic, cubic. auto_derive; [auto|]. field. Qed.

Lemma simpson a t0 h : h * (1 / 6 * cubic a (t0 + h) + 1 / 6 * cubic a t0 + 2 / 3 * cubic a (t0 + h / 2)) = quartic a (t0 + h) - quartic a t0.
Proof. unfold cubic, quartic. field. Qed.

Lemma trace_time F Tp a b (X Y : R -> R) x y t dt : step_number t ->
  velocity_is F Tp (fun _ _ s => cubic a s) (fun _ _ s => cubic b s) ->
  (forall s, derivable_pt_lim X s (cubic a s)) -> (forall s, derivable_pt_lim Y s (cubic b s)) ->
  X ((IZR t + 1) * dt) = x -> Y ((IZR t + 1) * dt) = y ->
  back_trace F true x y t dt Tp = (X (IZR t * dt), Y (IZR t * dt)).
Proof.
  intros Ht HF HX HY Ex Ey.
  unfold back_trace, third_back. unfold euler_back, second_back. cbn [fst snd]. unfold time_mid. rewrite !time_at_R1, !time_at_R by assumption. nr.
  rewrite !(fun x y s => proj1 (HF x y s)), !(fun x y s => proj2 (HF x y s)).
  replace ((IZR t + 1) * dt) with (IZR t * dt + dt) in * by ring.
  rewrite !simpson.
  rewrite <- (same_derivative X (quartic a) (cubic a) HX (quartic_derive a)), <- (same_derivative Y (quartic b) (cubic b) HY (quartic_derive b)).
  rewrite Ex, Ey. f_equal; ring.
Qed.

Lemma trace_constant F Tp u v x y t dt rk3 : velocity_is F Tp (fun _ _ _ => u) (fun _ _ _ => v) ->
  back_trace F rk3 x y t dt Tp = (x - u * dt, y - v * dt).
Proof.
  intros HF. unfold back_trace, third_back, euler_back. cbn [fst snd]. nr.
  rewrite !(fun x y s => proj1 (HF x y s)), !(fun x y s => proj2 (HF x y s)).
  destruct rk3; cbn [fst snd]; f_equal; field.
Qed.

(** *** velocities linear in space *)
Lemma trace_linear F Tp a b c d x y t dt : velocity_is F Tp (fun x y _ => a * x + b * y) (fun x y _ => c * x + d * y) ->
  let A := mat a b c d in let p := (x, y) in
  back_trace F false x y t dt Tp = padd (- dt) p (A p) /\
  back_trace F true x y t dt Tp =
  padd (- dt ^ 3 / 6) (padd (dt ^ 2 / 2) (padd (- dt) p (A p)) (A (A p))) (A (A (A p))).
Proof.
  intros HF A p. unfold back_trace, third_back, second_back, euler_back, A, p, padd, mat. cbn [fst snd]. nr.
  rewrite !(fun x y s => proj1 (HF x y s)), !(fun x y s => proj2 (HF x y s)).
  split; f_equal; field.
Qed.

(** the remainder of the exponential after four terms *)
Lemma grow (f f' : R -> R) z : 0 <= z -> f 0 = 0 -> (forall s, 0 <= s <= z -> is_derive f s (f' s)) ->
  (forall s, 0 <= s <= z -> 0 <= f' s) -> 0 <= f z.
Proof.
  intros Hz H0 HD HP. destruct (Req_dec z 0) as [->|Hne]; [lra|].
  destruct (MVT_gen f 0 z f') as (c & Hc & E).
  - intros x Hx. rewrite Rmin_left, Rmax_right in Hx by lra. apply HD. lra.
  - intros x Hx. rewrite Rmin_left, Rmax_right in Hx by lra.
    apply derivable_continuous_pt. exists (f' x). apply is_derive_Reals. apply HD. lra.
  - rewrite Rmin_left, Rmax_right in Hc by lra. specialize (HP c Hc).
    assert (0 <= f' c * (z - 0)) by (apply Rmult_le_pos; lra). lra.
Qed.

Definition T3 (z : R) : R := 1 - z + z ^ 2 / 2 - z ^ 3 / 6.
Lemma exp_rem_pos z : 0 <= z -> 0 <= exp (- z) - T3 z <= z ^ 4 / 24.
Proof.
  intros Hz. unfold T3.
  assert (E0 : forall s, 0 <= s -> 0 <= 1 - exp (- s)).
  { intros s Hs. pose proof (exp_ineq1_le s). assert (exp (- s) <= exp 0) by (destruct (Req_dec s 0) as [->|]; [right; f_equal; ring|left; apply exp_increasing; lra]).
    rewrite exp_0 in *. lra. }
  assert (E1 : forall s, 0 <= s -> 0 <= exp (- s) - 1 + s).
  { intros s Hs. apply (grow (fun s => exp (- s) - 1 + s) (fun s => 1 - exp (- s))); auto.
    - cbv beta. rewrite Ropp_0, exp_0. ring.
    - intros u Hu. auto_derive; [auto|]. ring.
    - intros u Hu. apply E0. lra. }
  assert (E2 : forall s, 0 <= s -> 0 <= 1 - s + s ^ 2 / 2 - exp (- s)).
  { intros s Hs. apply (grow (fun s => 1 - s + s ^ 2 / 2 - exp (- s)) (fun s => exp (- s) - 1 + s)); auto.
    - cbv beta. rewrite Ropp_0, exp_0. field.
    - intros u Hu. auto_derive; [auto|]. field.
    - intros u Hu. apply E1. lra. }
  assert (E3 : forall s, 0 <= s -> 0 <= exp (- s) - (1 - s + s ^ 2 / 2 - s ^ 3 / 6)).
  { intros s Hs. apply (grow (fun s => exp (- s) - (1 - s + s ^ 2 / 2 - s ^ 3 / 6)) (fun s => 1 - s + s ^ 2 / 2 - exp (- s))); auto.
    - cbv beta. rewrite Ropp_0, exp_0. field.
    - intros u Hu. auto_derive; [auto|]. field.
    - intros u Hu. apply E2. lra. }
  split; [apply E3; auto|].
  enough (0 <= z ^ 4 / 24 - (exp (- z) - (1 - z + z ^ 2 / 2 - z ^ 3 / 6))) by lra.
  apply (grow (fun z => z ^ 4 / 24 - (exp (- z) - (1 - z + z ^ 2 / 2 - z ^ 3 / 6))) (fun s => exp (- s) - (1 - s + s ^ 2 / 2 - s ^ 3 / 6))); auto.
  - cbv beta. rewrite Ropp_0, exp_0. field.
  - intros u Hu. auto_derive; [auto|]. field.
  - intros u Hu. apply E3. lra.
Qed.

Lemma exp_rem_neg w : 0 <= w -> 0 <= exp w - T3 (- w) <= w ^ 4 / 24 * exp w.
Proof.
  intros Hw. unfold T3.
  assert (E0 : forall s, 0 <= s -> 0 <= exp s - 1).
  { intros s Hs. pose proof (exp_ineq1_le s). lra. }
  assert (E1 : forall s, 0 <= s -> 0 <= exp s - 1 - s).
  { intros s Hs. pose proof (exp_ineq1_le s). lra. }
  assert (E2 : forall s, 0 <= s -> 0 <= exp s - 1 - s - s ^ 2 / 2).
  { intros s Hs. apply (grow (fun s => exp s - 1 - s - s ^ 2 / 2) (fun s => exp s - 1 - s)); auto.
    - cbv beta. rewrite exp_0. field.
    - intros u Hu. auto_derive; [auto|]. field.
    - intros u Hu. apply E1. lra. }
  assert (E3 : forall s, 0 <= s -> 0 <= exp s - 1 - s - s ^ 2 / 2 - s ^ 3 / 6).
  { intros s Hs. apply (grow (fun s => exp s - 1 - s - s ^ 2 / 2 - s ^ 3 / 6) (fun s => exp s - 1 - s - s ^ 2 / 2)); auto.
    - cbv beta. rewrite exp_0. field.
    - intros u Hu. auto_derive; [auto|]. field.
    - intros u Hu. apply E2. lra. }
  split; [specialize (E3 w Hw); lra|].
  (* upper bounds: each remainder is at most s^k/k! exp s *)
  assert (P : forall s, 0 < exp s) by apply exp_pos.
  assert (U1 : forall s, 0 <= s -> 0 <= s * exp s - (exp s - 1)).
  { intros s Hs. apply (grow (fun s => s * exp s - (exp s - 1)) (fun s => s * exp s)); auto.
    - cbv beta. rewrite exp_0. field.
    - intros u Hu. auto_derive; [auto|]. ring.
    - intros u Hu. apply Rmult_le_pos; [lra|left; apply P]. }
  assert (U2 : forall s, 0 <= s -> 0 <= s ^ 2 / 2 * exp s - (exp s - 1 - s)).
  { intros s Hs. apply (grow (fun s => s ^ 2 / 2 * exp s - (exp s - 1 - s)) (fun s => s ^ 2 / 2 * exp s + (s * exp s - (exp s - 1)))); auto.
    - cbv beta. rewrite exp_0. field.
    - intros u Hu. auto_derive; [auto|]. field.
    - intros u Hu. pose proof (U1 u ltac:(lra)). pose proof (pow2_ge_0 u). pose proof (P u).
      assert (0 <= u ^ 2 / 2 * exp u) by (apply Rmult_le_pos; lra). lra. }
  assert (U3 : forall s, 0 <= s -> 0 <= s ^ 3 / 6 * exp s - (exp s - 1 - s - s ^ 2 / 2)).
  { intros s Hs. apply (grow (fun s => s ^ 3 / 6 * exp s - (exp s - 1 - s - s ^ 2 / 2)) (fun s => s ^ 3 / 6 * exp s + (s ^ 2 / 2 * exp s - (exp s - 1 - s)))); auto.
    - cbv beta. rewrite exp_0. field.
    - intros u Hu. auto_derive; [auto|]. field.
    - intros u Hu. pose proof (U2 u ltac:(lra)). pose proof (pow_le u 3 ltac:(lra)). pose proof (P u).
      assert (0 <= u ^ 3 / 6 * exp u) by (apply Rmult_le_pos; lra). lra. }
  enough (0 <= w ^ 4 / 24 * exp w - (exp w - 1 - w - w ^ 2 / 2 - w ^ 3 / 6)) by lra.
  apply (grow (fun s => s ^ 4 / 24 * exp s - (exp s - 1 - s - s ^ 2 / 2 - s ^ 3 / 6)) (fun s => s ^ 4 / 24 * exp s + (s ^ 3 / 6 * exp s - (exp s - 1 - s - s ^ 2 / 2)))); auto.
  - cbv beta. rewrite exp_0. field.
  - intros u Hu. auto_derive; [auto|]. field.
  - intros u Hu. pose proof (U3 u ltac:(lra)). pose proof (pow_le u 4 ltac:(lra)). pose proof (P u).
    assert (0 <= u ^ 4 / 24 * exp u) by (apply Rmult_le_pos; lra). lra.
Qed.

Lemma exp_rem z : Rabs (exp (- z) - T3 z) <= Rabs z ^ 4 / 24 * exp (Rabs z).
Proof.
  destruct (Rle_dec 0 z) as [H|H].
  - destruct (exp_rem_pos z H). rewrite (Rabs_right z), Rabs_right by lra.
    pose proof (exp_ineq1_le z). pose proof (pow_le z 4 H).
    assert (z ^ 4 / 24 * 1 <= z ^ 4 / 24 * exp z) by (apply Rmult_le_compat_l; lra). lra.
  - destruct (exp_rem_neg (- z) ltac:(lra)). rewrite Ropp_involutive in *.
    rewrite (Rabs_left z), Rabs_right by lra. lra.
Qed.

Lemma trace_diagonal F Tp l m x y t dt : velocity_is F Tp (fun x _ _ => l * x) (fun _ y _ => m * y) ->
  let p := back_trace F true x y t dt Tp in
  Rabs (fst p - x * exp (- (l * dt))) <= Rabs x * (Rabs (l * dt) ^ 4 / 24 * exp (Rabs (l * dt))) /\
  Rabs (snd p - y * exp (- (m * dt))) <= Rabs y * (Rabs (m * dt) ^ 4 / 24 * exp (Rabs (m * dt))).
Proof.
  intros HF p.
  assert (HF' : velocity_is F Tp (fun x y _ => l * x + 0 * y) (fun x y _ => 0 * x + m * y)).
  { intros a b s. destruct (HF a b s) as (-> & ->). split; ring. }
  destruct (trace_linear F Tp l 0 0 m x y t dt HF') as (_ & E). unfold p. rewrite E. unfold padd, mat. cbn [fst snd].
  assert (G : forall k z, Rabs (z - z * k * dt - z * exp (- (k * dt)) + z * k * k * dt ^ 2 / 2 - z * k * k * k * dt ^ 3 / 6) <=
    Rabs z * (Rabs (k * dt) ^ 4 / 24 * exp (Rabs (k * dt)))).
  { intros k z. replace (z - z * k * dt - z * exp (- (k * dt)) + z * k * k * dt ^ 2 / 2 - z * k * k * k * dt ^ 3 / 6)
      with (- (z * (exp (- (k * dt)) - T3 (k * dt)))) by (unfold T3; field).
    rewrite Rabs_Ropp, Rabs_mult. apply Rmult_le_compat_l; [apply Rabs_pos|apply exp_rem]. }
  split.
  - specialize (G l x). match type of G with Rabs ?b <= _ => match goal with |- Rabs ?a <= _ => replace a with b by field end end. exact G.
  - specialize (G m y). match type of G with Rabs ?b <= _ => match goal with |- Rabs ?a <= _ => replace a with b by field end end. exact G.
Qed.

(** *** total derivatives *)
Notation dlim := differentiable_pt_lim.
Lemma d_eq f x y a b a' b' : dlim f x y a b -> a = a' -> b = b' -> dlim f x y a' b'.
Proof. intros H -> ->. exact H. Qed.
Lemma d_ext f g x y a b : (forall u v, f u v = g u v) -> dlim f x y a b -> dlim g x y a b.
Proof. intros E. apply differentiable_pt_lim_ext. exists (mkposreal 1 Rlt_0_1). auto. Qed.
Lemma d_lin k l c x y : dlim (fun u v => k * u + l * v + c) x y k l.
Proof.
  intros eps. exists (mkposreal 1 Rlt_0_1). intros u v _ _.
  replace (k * u + l * v + c - (k * x + l * y + c) - (k * (u - x) + l * (v - y))) with 0 by ring.
  rewrite Rabs_R0. apply Rmult_le_pos; [left; apply cond_pos|]. eapply Rle_trans; [apply Rabs_pos|apply Rmax_l].
Qed.
Lemma d_fst x y : dlim (fun u _ => u) x y 1 0.
Proof. apply (d_ext (fun u v => 1 * u + 0 * v + 0)); [intros; ring|apply d_lin]. Qed.
Lemma d_snd x y : dlim (fun _ v => v) x y 0 1.
Proof. apply (d_ext (fun u v => 0 * u + 1 * v + 0)); [intros; ring|apply d_lin]. Qed.
Lemma d_const c x y : dlim (fun _ _ => c) x y 0 0.
Proof. apply (d_ext (fun u v => 0 * u + 0 * v + c)); [intros; ring|apply d_lin]. Qed.
Lemma d_add f g x y a b a' b' : dlim f x y a b -> dlim g x y a' b' -> dlim (fun u v => f u v + g u v) x y (a + a') (b + b').
Proof.
  intros H H'. eapply d_ext; [|eapply d_eq; [apply (differentiable_pt_lim_comp (fun p q => 1 * p + 1 * q + 0) f g x y 1 1); [apply d_lin|exact H|exact H']| |]];
  [intros; cbv beta; ring|ring|ring].
Qed.
Lemma d_sub f g x y a b a' b' : dlim f x y a b -> dlim g x y a' b' -> dlim (fun u v => f u v - g u v) x y (a - a') (b - b').
Proof.
  intros H H'. eapply d_ext; [|eapply d_eq; [apply (differentiable_pt_lim_comp (fun p q => 1 * p + (-1) * q + 0) f g x y 1 (-1)); [apply d_lin|exact H|exact H']| |]];
  [intros; cbv beta; ring|ring|ring].
Qed.
Lemma d_scal k f x y a b : dlim f x y a b -> dlim (fun u v => k * f u v) x y (k * a) (k * b).
Proof.
  intros H. eapply d_ext; [|eapply d_eq; [apply (differentiable_pt_lim_comp (fun p q => k * p + 0 * q + 0) f f x y k 0); [apply d_lin|exact H|exact H]| |]];
  [intros; cbv beta; ring|ring|ring].
Qed.
Lemma d_scalr k f x y a b : dlim f x y a b -> dlim (fun u v => f u v * k) x y (a * k) (b * k).
Proof.
  intros H. eapply d_ext; [|eapply d_eq; [apply (d_scal k f x y a b H)| |]]; [intros; cbv beta; ring|ring|ring].
Qed.
Lemma d_mul x y : dlim (fun u v => u * v) x y y x.
Proof.
  intros eps. exists eps. intros u v Hu Hv.
  replace (u * v - x * y - (y * (u - x) + x * (v - y))) with ((u - x) * (v - y)) by ring.
  rewrite Rabs_mult. apply Rmult_le_compat; try apply Rabs_pos; [lra|apply Rmax_r].
Qed.
Lemma d_prod f g x y l m : derivable_pt_lim f x l -> derivable_pt_lim g y m -> dlim (fun u v => f u * g v) x y (l * g y) (f x * m).
Proof.
  intros Hf Hg. eapply d_eq; [apply (differentiable_pt_lim_comp (fun p q => p * q) (fun u _ => f u) (fun _ v => g v) x y (g y) (f x) l 0 0 m)| |].
  - apply d_mul.
  - apply differentiable_pt_lim_proj1_0. exact Hf.
  - eapply d_eq; [apply (differentiable_pt_lim_comp (fun p _ => g p) (fun _ v => v) (fun _ v => v) x y m 0 0 1 0 1)| |].
    + apply differentiable_pt_lim_proj1_0. exact Hg.
    + apply d_snd.
    + apply d_snd.
    + ring.
    + ring.
  - ring.
  - ring.
Qed.

Lemma Hw_dlim (h : R) (p s q r : R -> R) p' s' q' r' x0 dx x y :
  derivable_pt_lim p y p' -> derivable_pt_lim s y s' -> derivable_pt_lim q y q' -> derivable_pt_lim r y r' ->
  dlim (fun u v => Hw (wts false ((u - x0) / dx)) (p v) (s v) (q v) (r v) h) x y
    (Hw (wts true ((x - x0) / dx)) (p y) (s y) (q y) (r y) h * / dx)
    (Hw (wts false ((x - x0) / dx)) p' s' q' r' h).
Proof.
  intros Hp Hs Hq Hr.
  assert (W : forall (a b c d : R) u, Hw (wts false ((u - x0) / dx)) a b c d h =
     Hw (wts false ((u - x0) / dx)) 1 0 0 0 h * a + Hw (wts false ((u - x0) / dx)) 0 1 0 0 h * b +
     Hw (wts false ((u - x0) / dx)) 0 0 1 0 h * c + Hw (wts false ((u - x0) / dx)) 0 0 0 1 h * d).
  { intros. destruct (four_bern ((u - x0) / dx)) as (w0 & w1 & w2 & w3 & E). cbn [wts]. rewrite E. unfold Hw. field. }
  assert (W' : forall (a b c d : R), Hw (wts true ((x - x0) / dx)) a b c d h =
     Hw (wts true ((x - x0) / dx)) 1 0 0 0 h * a + Hw (wts true ((x - x0) / dx)) 0 1 0 0 h * b +
     Hw (wts true ((x - x0) / dx)) 0 0 1 0 h * c + Hw (wts true ((x - x0) / dx)) 0 0 0 1 h * d).
  { intros. destruct (four_bern' ((x - x0) / dx)) as (w0 & w1 & w2 & w3 & E). cbn [wts]. rewrite E. unfold Hw. field. }
  eapply d_ext; [intros u v; symmetry; apply W|].
  rewrite W'. rewrite (W p' s' q' r').
  assert (B : forall a b c d, derivable_pt_lim (fun u => Hw (wts false ((u - x0) / dx)) a b c d h) x (Hw (wts true ((x - x0) / dx)) a b c d h * / dx)).
  { intros. apply (affine_comp (fun e => Hw (wts false e) a b c d h)). apply Hw_derive. }
  eapply d_eq; [apply d_add; [apply d_add; [apply d_add|]|]; (apply d_prod; [apply B|eassumption])| |]; cbv beta; ring.
Qed.

Lemma Hw_scal w a b c d h k : four w -> Hw w (a * k) (b * k) (c * k) (d * k) h = Hw w a b c d h * k.
Proof. intros (w0 & w1 & w2 & w3 & ->). unfold Hw. field. Qed.

Lemma hp_total phi psix psiy psixy x y xo yo dx dy :
  dlim (fun x y => hp phi psix psiy psixy x y xo yo dx dy) x y
    (hermx phi psix psiy psixy x y xo yo dx dy) (hermy phi psix psiy psixy x y xo yo dx dy).
Proof.
  eapply d_ext; [intros; symmetry; apply hp_H2w|]. rewrite hermx_H2w, hermy_H2w.
  unfold H2w. cbn [vx vy].
  set (N := nodals phi psix psiy psixy).
  assert (B : forall a b c d, derivable_pt_lim (fun v => Hw (wts false ((v - yo) / dy)) a b c d dy) y (Hw (wts true ((y - yo) / dy)) a b c d dy * / dy)).
  { intros. apply (affine_comp (fun e => Hw (wts false e) a b c d dy)). apply Hw_derive. }
  eapply d_eq; [apply (Hw_dlim dx
     (fun v => Hw (wts false ((v - yo) / dy)) (q_phi (N q0)) (vy (q_psi (N q0))) (q_phi (N q2)) (vy (q_psi (N q2))) dy)
     (fun v => Hw (wts false ((v - yo) / dy)) (vx (q_psi (N q0))) (q_m0 (N q0)) (vx (q_psi (N q2))) (q_m0 (N q2)) dy)
     (fun v => Hw (wts false ((v - yo) / dy)) (q_phi (N q1)) (vy (q_psi (N q1))) (q_phi (N q3)) (vy (q_psi (N q3))) dy)
     (fun v => Hw (wts false ((v - yo) / dy)) (vx (q_psi (N q1))) (q_m0 (N q1)) (vx (q_psi (N q3))) (q_m0 (N q3)) dy)); apply B|reflexivity|].
  cbn beta. apply Hw_scal. apply four_bern.
Qed.

(** *** the vortex has true gradients *)
Lemma vortex_true Tp : true_gradients vortex Tp.
Proof.
  intros x y s. unfold vortex. cbn [Velx Vely gradUx gradUy gradVx gradVy]. unfold sqr. nr.
  assert (S : forall a, sin (2 * PI * a) = 2 * sin (PI * a) * cos (PI * a)) by (intros a; rewrite <- sin_2a; f_equal; ring).
  set (k := cos (PI * s / Tp)). split.
  - eapply d_eq; [apply d_scalr; apply (d_prod (fun u => sin (PI * u) * sin (PI * u)) (fun v => sin (2 * PI * v)) x y
      (2 * PI * sin (PI * x) * cos (PI * x)) (2 * PI * cos (2 * PI * y)))| |].
    + apply is_derive_Reals. auto_derive; [auto|]. ring.
    + apply is_derive_Reals. auto_derive; [auto|]. ring.
    + rewrite (S x). ring.
    + ring.
  - eapply d_eq; [apply d_scalr; eapply d_ext;
      [|apply (d_prod (fun u => sin (2 * PI * u)) (fun v => - (sin (PI * v) * sin (PI * v))) x y
      (2 * PI * cos (2 * PI * x)) (- (2 * PI * sin (PI * y) * cos (PI * y))))]| |].
    + intros. cbv beta. ring.
    + apply is_derive_Reals. auto_derive; [auto|]. ring.
    + apply is_derive_Reals. auto_derive; [auto|]. ring.
    + ring.
    + rewrite (S y). ring.
Qed.

(** *** SuperConsistent: the gradient of the interpolant composed with the back-trace *)
Lemma super_consistent F Tp rk3 x y t dt g rx ry : true_gradients F Tp ->
  let p := back_trace F rk3 x y t dt Tp in
  dlim g (fst p) (snd p) rx ry ->
  let r := SuperConsistentScheme F rk3 x y rx ry t dt Tp in
  dlim (fun u v => let p := back_trace F rk3 u v t dt Tp in g (fst p) (snd p)) x y (fst r) (snd r).
Proof.
  intros HF p Hg r.
  set (t1 := time_at (t + 1) dt). set (t0 := time_at t dt). set (tm := time_mid t dt).
  set (U1 := fun u v => Velx F u v t1 Tp). set (V1 := fun u v => Vely F u v t1 Tp).
  set (XA := fun u v => u - U1 u v * dt). set (YA := fun u v => v - V1 u v * dt).
  assert (DU1 : dlim U1 x y (gradUx F x y t1 Tp) (gradUy F x y t1 Tp)) by apply (HF x y t1).
  assert (DV1 : dlim V1 x y (gradVx F x y t1 Tp) (gradVy F x y t1 Tp)) by apply (HF x y t1).
  assert (DXA : dlim XA x y (1 - gradUx F x y t1 Tp * dt) (0 - gradUy F x y t1 Tp * dt)).
  { apply d_sub; [apply d_fst|apply d_scalr; exact DU1]. }
  assert (DYA : dlim YA x y (0 - gradVx F x y t1 Tp * dt) (1 - gradVy F x y t1 Tp * dt)).
  { apply d_sub; [apply d_snd|apply d_scalr; exact DV1]. }
  destruct rk3.
  2:{ eapply d_eq; [apply (differentiable_pt_lim_comp g XA YA x y _ _ _ _ _ _ Hg DXA DYA)| |]; unfold r, SuperConsistentScheme; cbn [fst snd]; nr; fold t1; ring. }
  set (U2 := fun u v => Velx F (XA u v) (YA u v) t0 Tp). set (V2 := fun u v => Vely F (XA u v) (YA u v) t0 Tp).
  set (xa := XA x y) in *. set (ya := YA x y) in *.
  pose proof (differentiable_pt_lim_comp _ XA YA x y _ _ _ _ _ _ (proj1 (HF (XA x y) (YA x y) t0)) DXA DYA) as DU2.
  pose proof (differentiable_pt_lim_comp _ XA YA x y _ _ _ _ _ _ (proj2 (HF (XA x y) (YA x y) t0)) DXA DYA) as DV2.
  fold xa ya in DU2, DV2. change (dlim U2 x y) with (dlim U2 x y) in DU2.
  set (XB := fun u v => u - (dt / 2 * (1 / 2 * U1 u v + 1 / 2 * U2 u v))).
  set (YB := fun u v => v - (dt / 2 * (1 / 2 * V1 u v + 1 / 2 * V2 u v))).
  pose proof (d_sub (fun u _ => u) (fun u v => dt / 2 * (1 / 2 * U1 u v + 1 / 2 * U2 u v)) x y _ _ _ _ (d_fst x y)
    (d_scal (dt / 2) _ x y _ _ (d_add _ _ x y _ _ _ _ (d_scal (1 / 2) U1 x y _ _ DU1) (d_scal (1 / 2) U2 x y _ _ DU2)))) as DXB.
  pose proof (d_sub (fun _ v => v) (fun u v => dt / 2 * (1 / 2 * V1 u v + 1 / 2 * V2 u v)) x y _ _ _ _ (d_snd x y)
    (d_scal (dt / 2) _ x y _ _ (d_add _ _ x y _ _ _ _ (d_scal (1 / 2) V1 x y _ _ DV1) (d_scal (1 / 2) V2 x y _ _ DV2)))) as DYB.
  set (U3 := fun u v => Velx F (XB u v) (YB u v) tm Tp). set (V3 := fun u v => Vely F (XB u v) (YB u v) tm Tp).
  pose proof (differentiable_pt_lim_comp _ XB YB x y _ _ _ _ _ _ (proj1 (HF (XB x y) (YB x y) tm)) DXB DYB) as DU3.
  pose proof (differentiable_pt_lim_comp _ XB YB x y _ _ _ _ _ _ (proj2 (HF (XB x y) (YB x y) tm)) DXB DYB) as DV3.
  pose proof (d_sub (fun u _ => u) (fun u v => dt * (1 / 6 * U1 u v + 1 / 6 * U2 u v + 2 / 3 * U3 u v)) x y _ _ _ _ (d_fst x y)
    (d_scal dt _ x y _ _ (d_add _ _ x y _ _ _ _ (d_add _ _ x y _ _ _ _ (d_scal (1 / 6) U1 x y _ _ DU1) (d_scal (1 / 6) U2 x y _ _ DU2))
       (d_scal (2 / 3) U3 x y _ _ DU3)))) as DXC.
  pose proof (d_sub (fun _ v => v) (fun u v => dt * (1 / 6 * V1 u v + 1 / 6 * V2 u v + 2 / 3 * V3 u v)) x y _ _ _ _ (d_snd x y)
    (d_scal dt _ x y _ _ (d_add _ _ x y _ _ _ _ (d_add _ _ x y _ _ _ _ (d_scal (1 / 6) V1 x y _ _ DV1) (d_scal (1 / 6) V2 x y _ _ DV2))
       (d_scal (2 / 3) V3 x y _ _ DV3)))) as DYC.
  eapply d_eq; [apply (differentiable_pt_lim_comp g (fun u v => u - dt * (1 / 6 * U1 u v + 1 / 6 * U2 u v + 2 / 3 * U3 u v))
      (fun u v => v - dt * (1 / 6 * V1 u v + 1 / 6 * V2 u v + 2 / 3 * V3 u v)) x y _ _ _ _ _ _ Hg DXC DYC)| |].
  all: unfold r, SuperConsistentScheme; cbn [fst snd]; nr; fold t1 t0 tm;
    change (x - Velx F x y t1 Tp * dt) with xa; change (y - Vely F x y t1 Tp * dt) with ya;
    change (x - dt / 2 * (1 / 2 * Velx F x y t1 Tp + 1 / 2 * Velx F xa ya t0 Tp)) with (XB x y);
    change (y - dt / 2 * (1 / 2 * Vely F x y t1 Tp + 1 / 2 * Vely F xa ya t0 Tp)) with (YB x y); field.
Qed.

Lemma super_consistent_hp F Tp rk3 x y t dt phi psix psiy psixy xo yo dx dy : true_gradients F Tp ->
  let p := back_trace F rk3 x y t dt Tp in
  let r := SuperConsistentScheme F rk3 x y (hermx phi psix psiy psixy (fst p) (snd p) xo yo dx dy)
     (hermy phi psix psiy psixy (fst p) (snd p) xo yo dx dy) t dt Tp in
  dlim (fun u v => let p := back_trace F rk3 u v t dt Tp in hp phi psix psiy psixy (fst p) (snd p) xo yo dx dy) x y (fst r) (snd r).
Proof. intros HF p r. apply (super_consistent F Tp rk3 x y t dt (fun x y => hp phi psix psiy psixy x y xo yo dx dy)); [exact HF|apply hp_total]. Qed.

(** *** Heun *)
Lemma heuns_internal F Tp x y xa ya rx ry t dt : step_number t -> dt <> 0 ->
  let s0 := IZR t * dt in
  let ideal := heun (gradient_rhs F Tp x y xa ya s0) s0 dt (rx, ry) in
  let code := Heuns_internal F x y xa ya rx ry t dt Tp in
  let pred := rx - dt * (gradUx F xa ya s0 Tp * rx + gradVx F xa ya s0 Tp * ry) in
  fst code = fst ideal /\ snd code = snd ideal - dt / 2 * gradUy F x y (s0 + dt) Tp * (fst ideal - pred).
Proof.
  intros Ht Hdt s0 ideal code pred.
  assert (E1 : time_at (t + 1) dt = s0 + dt) by (rewrite time_at_R1 by assumption; unfold s0; ring).
  assert (E0 : time_at t dt = s0) by (apply time_at_R; assumption).
  unfold code, Heuns_internal. rewrite E1, E0. unfold ideal, heun, gradient_rhs. cbn [fst snd].
  destruct (Req_EM_T s0 s0) as [_|C]; [|congruence].
  destruct (Req_EM_T (s0 + dt) s0) as [C|_]; [exfalso; lra|].
  unfold pred. clearbody s0. nr. split; field.
Qed.

Lemma boundary_schemes F Tp x y rx ry pxy px t dt :
  Heuns_X F x y rx ry pxy px t dt Tp =
    (let f s q := gradVx F x y s Tp * ry + Vely F x y s Tp * pxy + gradUx F x y s Tp * q in
     let s0 := time_at t dt in let s1 := time_at (t + 1) dt in
     rx - dt / 2 * (f s0 px + f s1 (rx - dt * f s0 px))) /\ Heuns_Y F x y rx ry pxy px t dt Tp =
    (let f s q := gradUy F x y s Tp * rx + Velx F x y s Tp * pxy + gradVy F x y s Tp * q in
     let s0 := time_at t dt in let s1 := time_at (t + 1) dt in
     ry - dt / 2 * (f s0 px + f s1 (ry - dt * f s0 px))).
Proof. unfold Heuns_X, Heuns_Y. nr. cbv zeta. split; field. Qed.
