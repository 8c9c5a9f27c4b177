From Coq Require Import ZArith List Lia Bool Reals Lra.
From Verif Require Import Base Num ModelVec ModelGrid ModelArray ModelInterp SpecGrid SpecInterp
  ProofsBase ProofsGrid ProofsArray ProofsGridProps ProofsHermite.
Open Scope R_scope.

(** ** One-dimensional facts *)
Definition wts (d : bool) (e : R) : list R := if d then bern' e else bern e.
Lemma four_wts d e : four (wts d e).
Proof. destruct d; [apply four_bern'|apply four_bern]. Qed.

Ltac unfold_bern := unfold Hw, wts, bern, bern', B0, B1, B2, B3, B0_Prime, B1_Prime, B2_Prime, B3_Prime, cube, sqr;
  cbn [nadd nsub nmul ndiv nofZ NumR].

Lemma Hw_exact d a x0 h e :
  Hw (wts d e) (cubic a x0) (cubic' a x0) (cubic a (x0 + h)) (cubic' a (x0 + h)) h
  = (if d then h else 1) * P1 d a (x0 + e * h).
Proof. destruct d; unfold_bern; unfold P1, cubic, cubic'; field. Qed.

Lemma Hw_0 p0 s0 p1 s1 h : Hw (wts false 0) p0 s0 p1 s1 h = p0.
Proof. unfold_bern. field. Qed.
Lemma Hw_1 p0 s0 p1 s1 h : Hw (wts false 1) p0 s0 p1 s1 h = p1.
Proof. unfold_bern. field. Qed.
Lemma Hw'_0 p0 s0 p1 s1 h : Hw (wts true 0) p0 s0 p1 s1 h = s0 * h.
Proof. unfold_bern. field. Qed.
Lemma Hw'_1 p0 s0 p1 s1 h : Hw (wts true 1) p0 s0 p1 s1 h = s1 * h.
Proof. unfold_bern. field. Qed.

Lemma P1_swap dx dy c x y :
  P1 dx (fun i => P1 dy (fun j => c i j) y) x = P1 dy (fun j => P1 dx (fun i => c i j) x) y.
Proof. destruct dx, dy; unfold P1, cubic, cubic'; ring. Qed.
Lemma P1_ext d a b x : (forall i, a i = b i) -> P1 d a x = P1 d b x.
Proof. intros H. destruct d; unfold P1, cubic, cubic'; rewrite !H; reflexivity. Qed.
Lemma P1_scale d a x s : P1 d (fun i => s * a i) x = s * P1 d a x.
Proof. destruct d; unfold P1, cubic, cubic'; ring. Qed.

(** derivative in the local coordinate *)
Lemma Hw_derive p0 s0 p1 s1 h e :
  derivable_pt_lim (fun e => Hw (wts false e) p0 s0 p1 s1 h) e (Hw (wts true e) p0 s0 p1 s1 h).
Proof.
  set (a := fun i => match i with 0%nat => p0 | 1%nat => s0 * h
     | 2%nat => 3 * (p1 - p0) - h * (2 * s0 + s1) | _ => 2 * (p0 - p1) + h * (s0 + s1) end).
  assert (E : forall e, Hw (wts false e) p0 s0 p1 s1 h = cubic a e).
  { intros e0. unfold_bern. unfold cubic, a. field. }
  assert (E' : Hw (wts true e) p0 s0 p1 s1 h = cubic' a e).
  { unfold_bern. unfold cubic', a. field. }
  rewrite E'. apply derivable_pt_lim_ext with (f := cubic a); [intros; symmetry; apply E|].
  unfold cubic.
  replace (cubic' a e) with (0 + a 1%nat * 1 + a 2%nat * (INR 2 * e ^ 1) + a 3%nat * (INR 3 * e ^ 2))
    by (unfold cubic'; simpl; ring).
  apply derivable_pt_lim_plus with (f1 := fun x => a 0%nat + a 1%nat * x + a 2%nat * x ^ 2) (f2 := fun x => a 3%nat * x ^ 3).
  apply derivable_pt_lim_plus with (f1 := fun x => a 0%nat + a 1%nat * x) (f2 := fun x => a 2%nat * x ^ 2).
  apply derivable_pt_lim_plus with (f1 := fun x => a 0%nat) (f2 := fun x => a 1%nat * x).
  - apply derivable_pt_lim_const.
  - apply (derivable_pt_lim_scal id (a 1%nat) e 1). apply derivable_pt_lim_id.
  - apply (derivable_pt_lim_scal (fun x => x ^ 2) (a 2%nat) e). apply (derivable_pt_lim_pow e 2).
  - apply (derivable_pt_lim_scal (fun x => x ^ 3) (a 3%nat) e). apply (derivable_pt_lim_pow e 3).
Qed.

(** ** The interpolant of one cell, in any dimension *)
Definition cstep (b : cell) (a : axis) : cell :=
  match b with (i, j, k) =>
    match a with AX => (i + 1, j, k) | AY => (i, j + 1, k) | AZ => (i, j, k + 1) end%Z end.
Definition corners3 {A} (Q : cell -> A) (b : cell)
    (f : A -> A -> A -> A -> A -> A -> A -> A -> R) : R :=
  f (Q b) (Q (cstep b AX)) (Q (cstep b AY)) (Q (cstep b AZ)) (Q (cstep (cstep b AX) AY))
    (Q (cstep (cstep b AY) AZ)) (Q (cstep (cstep b AX) AZ)) (Q (cstep (cstep (cstep b AX) AY) AZ)).

Definition HD (dim : nat) (W : axis -> list R) (Q : cell -> nodal R) (b : cell) (h : vec3 R) : R :=
  match dim with
  | 1%nat => Hw (W AX) (q_phi (Q b)) (vx (q_psi (Q b))) (q_phi (Q (cstep b AX))) (vx (q_psi (Q (cstep b AX)))) (vx h)
  | 2%nat => H2w (W AX) (W AY) (Q b) (Q (cstep b AX)) (Q (cstep b AY)) (Q (cstep (cstep b AX) AY)) h
  | _ => corners3 Q b (fun a b c d e f g i => H3w (W AX) (W AY) (W AZ) a b c d e f g i h)
  end.

(** weights: differentiated along the axis s, if any *)
Definition flag (s : option axis) (a : axis) : bool := match s with Some a' => axis_eqb a a' | None => false end.
Definition Wt (s : option axis) (e : vec3 R) (a : axis) : list R := wts (flag s a) (vget e a).

Definition herm (dim : nat) (Q : cell -> nodal R) (b : cell) (e h o : vec3 R) (lim : bool) : fields R :=
  match dim with
  | 1%nat => hermite1 (Q b) (Q (cstep b AX)) (vx e) (vx h) (vx o) lim
  | 2%nat => hermite2 (Q b) (Q (cstep b AX)) (Q (cstep b AY)) (Q (cstep (cstep b AX) AY)) e h o lim
  | _ => hermite3 (Q b) (Q (cstep b AX)) (Q (cstep b AY)) (Q (cstep b AZ)) (Q (cstep (cstep b AX) AY))
    (Q (cstep (cstep b AY) AZ)) (Q (cstep (cstep b AX) AZ)) (Q (cstep (cstep (cstep b AX) AY) AZ)) e h o lim
  end.

Definition hpsi dim Q b e h o (a : axis) : R :=
  if used dim a then HD dim (Wt (Some a) e) Q b h * vget o a else 0.

Lemma herm_HD dim Q b e h o : (1 <= dim <= 3)%nat ->
  herm dim Q b e h o false =
  mkFields (HD dim (Wt None e) Q b h) (V3 (hpsi dim Q b e h o AX) (hpsi dim Q b e h o AY) (hpsi dim Q b e h o AZ)).
Proof.
  intros Hd. dim_cases Hd; unfold herm, hpsi, HD, Wt, flag, corners3; cbn [used Nat.leb axis_eqb vget wts].
  - rewrite hermite1_H. reflexivity.
  - unfold hermite2. rewrite !wsum_tens2 by (apply four_bern || apply four_bern'). reflexivity.
  - unfold hermite3. rewrite !wsum_tens3 by (apply four_bern || apply four_bern'). reflexivity.
Qed.

(** *** Faces: the left end of the next cell is the right end of this one. *)
Lemma Hw_at0 d p0 s0 p1 s1 h : Hw (wts d 0) p0 s0 p1 s1 h = if d then s0 * h else p0.
Proof. destruct d; [apply Hw'_0|apply Hw_0]. Qed.
Lemma Hw_at1 d p0 s0 p1 s1 h : Hw (wts d 1) p0 s0 p1 s1 h = if d then s1 * h else p1.
Proof. destruct d; [apply Hw'_1|apply Hw_1]. Qed.

Lemma cstep_comm b a a' : cstep (cstep b a) a' = cstep (cstep b a') a.
Proof. destruct b as [[i j] k], a, a'; reflexivity. Qed.

Lemma face_agree dim s Q b e h a : (1 <= dim <= 3)%nat -> used dim a = true ->
  vget e a = 1 ->
  HD dim (Wt s e) Q b h = HD dim (Wt s (vset e a 0)) Q (cstep b a) h.
Proof.
  intros Hd Hu He.
  assert (F : forall a' d, flag s a' = d -> Wt s e a' = wts d (vget e a')) by (intros a' d <-; reflexivity).
  dim_cases Hd; destruct a; try discriminate; destruct e as [ex ey ez]; cbn [vget vx vy vz vset] in *; subst;
   unfold HD, Wt, corners3, H2w, H3w; cbn [vget vset vx vy vz];
   rewrite !Hw_at0, !Hw_at1;
   rewrite ?(cstep_comm b AY AX), ?(cstep_comm b AZ AX), ?(cstep_comm b AZ AY),
           ?(cstep_comm (cstep b AX) AZ AY);
   repeat match goal with |- context [if ?d then _ else _] => destruct d end; reflexivity.
Qed.

(** *** Nodes *)
Lemma node_value dim Q b h : (1 <= dim <= 3)%nat -> HD dim (Wt None (V3 0 0 0)) Q b h = q_phi (Q b).
Proof.
  intros Hd. dim_cases Hd; unfold HD, Wt, corners3, H2w, H3w, flag; cbn [vget vx vy vz];
   rewrite ?Hw_at0; reflexivity.
Qed.
Lemma node_slope dim Q b h a : (1 <= dim <= 3)%nat -> used dim a = true ->
  HD dim (Wt (Some a) (V3 0 0 0)) Q b h = vget (q_psi (Q b)) a * vget h a.
Proof.
  intros Hd Hu. dim_cases Hd; destruct a; try discriminate; unfold HD, Wt, corners3, H2w, H3w, flag; cbn [vget vx vy vz axis_eqb];
   rewrite ?Hw_at0; reflexivity.
Qed.

(** *** Derivatives *)
Lemma Hw_linear w (f0 f1 f2 f3 : R -> R) l0 l1 l2 l3 h t : four w ->
  derivable_pt_lim f0 t l0 -> derivable_pt_lim f1 t l1 -> derivable_pt_lim f2 t l2 -> derivable_pt_lim f3 t l3 ->
  derivable_pt_lim (fun t => Hw w (f0 t) (f1 t) (f2 t) (f3 t) h) t (Hw w l0 l1 l2 l3 h).
Proof.
  intros (a & b & c & d & ->) H0 H1 H2 H3. unfold Hw.
  assert (S : forall f l k, derivable_pt_lim f t l -> derivable_pt_lim (fun t => k * f t) t (k * l)).
  { intros f l k H. apply (derivable_pt_lim_scal f k t l H). }
  assert (P : forall f g l m, derivable_pt_lim f t l -> derivable_pt_lim g t m -> derivable_pt_lim (fun t => f t + g t) t (l + m)).
  { intros f g l m H H'. apply (derivable_pt_lim_plus f g t l m H H'). }
  apply derivable_pt_lim_ext with
    (f := fun t => (a + b) * f0 t + (h / 3 * b) * f1 t + (c + d) * f2 t + (- (h / 3) * c) * f3 t).
  { intros x. field. }
  replace (l0 * a + (l0 + l1 * h / 3) * b + (l2 - l3 * h / 3) * c + l2 * d)
    with ((a + b) * l0 + (h / 3 * b) * l1 + (c + d) * l2 + (- (h / 3) * c) * l3) by field.
  repeat apply P; apply S; assumption.
Qed.

Lemma HD_derive dim Q b e h a : (1 <= dim <= 3)%nat -> used dim a = true ->
  derivable_pt_lim (fun t => HD dim (Wt None (vset e a t)) Q b h) (vget e a) (HD dim (Wt (Some a) e) Q b h).
Proof.
  intros Hd Hu.
  dim_cases Hd; destruct a; try discriminate; unfold HD, Wt, corners3, H2w, H3w, flag; cbn [vget vset vx vy vz axis_eqb];
  try apply Hw_derive;
  repeat (apply Hw_derive || (apply Hw_linear; [first [apply four_bern|apply four_bern']| | | |])).
Qed.
