(** Gradient schemes on sampled fields, in exact arithmetic. *)
From Coq Require Import ZArith List Lia Bool Reals Lra.
From Verif Require Import Base Num ModelVec ModelGrid ModelArray ModelGradient
  SpecGrid SpecInterp SpecGradient ProofsBase ProofsGrid ProofsArray ProofsGridProps ProofsInterp ProofsInterpMore ProofsInterpApi ProofsGradient ProofsInterpProps.
Open Scope R_scope.

Section G.
Variables (ov : ovmode) (dim : nat) (n : vec3 Z) (pad : Z) (bmin bmax : vec3 R) (g : grid R).
Hypothesis Hb : built ov dim n pad bmin bmax g.
Let h (a : axis) := spacing (vget bmin a) (vget bmax a) (vget n a).

Lemma sampled_peek {A} (al : array A) f i j k p a s : samples ov dim n pad g al f ->
  interior_cell n (i, j, k) -> node ov g i j k = Ok p -> used dim a = true -> (- pad <= s <= pad)%Z ->
  peek g al (cshift (i, j, k) a s) = Ok (f (along p a (IZR s * h a))).
Proof.
  intros HS Hi Np Hu Hs.
  pose proof (built_ok _ _ _ _ _ _ _ Hb) as F. pose proof (bf_ok _ _ _ _ _ _ _ F) as Hg.
  assert (Hi' : interior_cell (g_n g) (i, j, k)) by (rewrite (bf_n _ _ _ _ _ _ _ F); exact Hi).
  assert (Hu' : used (g_dim g) a = true) by (rewrite (bf_dim _ _ _ _ _ _ _ F); exact Hu).
  destruct (ashift_ok ov g al i j k a s Hg Hi' Hu') as (C & _); [rewrite (bf_pad _ _ _ _ _ _ _ F); exact Hs|].
  pose proof C as C'. apply (built_gcell _ _ _ _ _ _ _ _ Hb) in C'.
  destruct (cshift (i, j, k) a s) as [[i' j'] k'] eqn:Ec.
  destruct (HS i' j' k' C') as (q & Nq & Eq).
  rewrite <- (aget_peek_c ov) by auto. rewrite Eq. f_equal. f_equal.
  assert (Hp : padded_cell dim n pad (i, j, k)) by (eapply interior_padded; [apply Hb|exact Hi]).
  destruct (node_position _ _ _ _ _ _ _ _ _ _ Hb Hp) as (p' & Np' & Vp). rewrite Np in Np'. inversion Np'; subst p'.
  destruct (node_position _ _ _ _ _ _ _ _ _ _ Hb C') as (q' & Nq' & Vq). rewrite Nq in Nq'. inversion Nq'; subst q'.
  apply vec_ext. intros b. rewrite Vq.
  assert (Eb : vget (along p a (IZR s * h a)) b = if axis_eqb a b then vget p a + IZR s * h a else vget p b)
    by (unfold along; destruct a, b; reflexivity).
  rewrite Eb. rewrite <- Ec.
  assert (Ecc : ccoord (cshift (i, j, k) a s) b = if axis_eqb a b then (ccoord (i, j, k) a + s)%Z else ccoord (i, j, k) b)
    by (destruct a, b; reflexivity).
  rewrite Ecc. destruct (axis_eqb a b) eqn:Eab.
  - assert (a = b) by (destruct a, b; try reflexivity; discriminate). subst b. rewrite Hu, Vp, Hu. unfold h. rewrite plus_IZR. ring.
  - rewrite Vp. reflexivity.
Qed.
Lemma sampled_peek0 {A} (al : array A) f i j k p : samples ov dim n pad g al f ->
  interior_cell n (i, j, k) -> node ov g i j k = Ok p -> peek g al (i, j, k) = Ok (f p).
Proof.
  intros HS Hi Np.
  pose proof (built_ok _ _ _ _ _ _ _ Hb) as F. pose proof (bf_ok _ _ _ _ _ _ _ F) as Hg.
  assert (Hp : padded_cell dim n pad (i, j, k)) by (eapply interior_padded; [apply Hb|exact Hi]).
  destruct (HS i j k Hp) as (q & Nq & Eq). rewrite Np in Nq. inversion Nq; subst q.
  rewrite <- (aget_peek_c ov); auto. apply (built_gcell _ _ _ _ _ _ _ _ Hb). exact Hp.
Qed.

Lemma node_ok i j k : interior_cell n (i, j, k) -> exists p, node ov g i j k = Ok p.
Proof.
  intros Hi. destruct (node_position ov dim n pad bmin bmax g i j k Hb) as (p & E & _); [|eauto].
  eapply interior_padded; [apply Hb|exact Hi].
Qed.

Section Scalar.
Variables (al : array R) (gr : array (vec3 R)) (f : vec3 R -> R).
Hypothesis Ha : array_on g al.
Hypothesis Hr : array_on g gr.
Hypothesis HS : samples ov dim n pad g al f.

Lemma scalar_finish gr' val D : shaped g gr' ->
  (forall c, interior_cell (g_n g) c -> exists x y, peek g gr c = Ok x /\ peek g gr' c = Ok y /\
       forall a, vget y a = if used (g_dim g) a then val c a else vget x a) ->
  (forall c, gcell g c -> ~ interior_cell (g_n g) c -> peek g gr' c = peek g gr c) ->
  (forall i j k p a, interior_cell n (i, j, k) -> node ov g i j k = Ok p -> used dim a = true -> val (i, j, k) a = D p a) ->
  grad_result ov dim n pad g gr gr' D.
Proof.
  intros S' Hi Ho HD. pose proof (built_ok _ _ _ _ _ _ _ Hb) as F. pose proof (bf_ok _ _ _ _ _ _ _ F) as Hg.
  rewrite (bf_n _ _ _ _ _ _ _ F) in Hi, Ho. rewrite (bf_dim _ _ _ _ _ _ _ F) in Hi.
  split; [apply (array_on_shaped _ _ _ _ _ _ _ _ Hb); exact S'|]. split.
  - intros i j k Hc. destruct (node_ok i j k Hc) as (p & Np). destruct (Hi _ Hc) as (x & y & Ex & Ey & V).
    assert (Hgc : gcell g (i, j, k)).
    { apply (built_gcell _ _ _ _ _ _ _ _ Hb). eapply interior_padded; [apply Hb|exact Hc]. }
    exists p, x, y. rewrite !(aget_peek_c ov) by auto. split; [exact Np|]. split; [exact Ex|]. split; [exact Ey|].
    intros a. rewrite V. destruct (used dim a) eqn:Hu; [|reflexivity]. apply HD; auto.
  - intros i j k Hp Hn. apply (built_gcell _ _ _ _ _ _ _ _ Hb) in Hp. rewrite !(aget_peek_c ov) by auto. apply Ho; auto.
Qed.

Lemma soc_any : (1 <= pad)%Z -> exists gr', soc_scalar ov g al g gr = Ok gr' /\
  grad_result ov dim n pad g gr gr' (fun p a => (f (along p a (h a)) - f (along p a (- h a))) / (2 * h a)).
Proof.
  intros Hp. pose proof (built_ok _ _ _ _ _ _ _ Hb) as F. pose proof (bf_ok _ _ _ _ _ _ _ F) as Hg.
  destruct (soc_scalar_effect ov g Hg al gr) as (gr' & E & S' & _ & Hi & Ho);
    [rewrite (bf_pad _ _ _ _ _ _ _ F); lia|apply (array_on_shaped _ _ _ _ _ _ _ _ Hb); auto|apply (array_on_shaped _ _ _ _ _ _ _ _ Hb); auto|].
  exists gr'. split; [exact E|]. refine (scalar_finish gr' (fun c a => _) _ S' Hi Ho _).
  intros i j k p a Hc Np Hu. cbv beta. unfold pk.
  rewrite (sampled_peek al f i j k p a 1 HS Hc Np Hu), (sampled_peek al f i j k p a (-1) HS Hc Np Hu) by lia.
  rewrite (built_dx _ _ _ _ _ _ _ a Hb). fold (h a). unfold soc_formula, half. cbn [nadd nsub nmul ndiv nofZ NumR].
  replace (1 * h a) with (h a) by ring. replace (-1 * h a) with (- h a) by ring. unfold Rdiv. rewrite Rinv_mult. lra.
Qed.

Lemma third_any : (2 <= pad)%Z -> exists gr', third_scalar ov g al g gr = Ok gr' /\
  grad_result ov dim n pad g gr gr' (fun p a => (2 * f (along p a (h a)) + 3 * f p - 6 * f (along p a (- h a)) + f (along p a (- 2 * h a))) / (6 * h a)).
Proof.
  intros Hp. pose proof (built_ok _ _ _ _ _ _ _ Hb) as F. pose proof (bf_ok _ _ _ _ _ _ _ F) as Hg.
  destruct (third_scalar_effect ov g Hg al gr) as (gr' & E & S' & _ & Hi & Ho);
    [rewrite (bf_pad _ _ _ _ _ _ _ F); lia|apply (array_on_shaped _ _ _ _ _ _ _ _ Hb); auto|apply (array_on_shaped _ _ _ _ _ _ _ _ Hb); auto|].
  exists gr'. split; [exact E|]. refine (scalar_finish gr' (fun c a => _) _ S' Hi Ho _).
  intros i j k p a Hc Np Hu. cbv beta. unfold pk.
  rewrite (sampled_peek al f i j k p a 1 HS Hc Np Hu), (sampled_peek al f i j k p a (-1) HS Hc Np Hu), (sampled_peek al f i j k p a (-2) HS Hc Np Hu) by lia.
  rewrite (sampled_peek0 al f i j k p HS Hc Np).
  rewrite (built_dx _ _ _ _ _ _ _ a Hb). fold (h a). unfold third_formula. cbn [nadd nsub nmul ndiv nofZ NumR].
  replace (1 * h a) with (h a) by ring. replace (-1 * h a) with (- h a) by ring. unfold Rdiv. ring.
Qed.
End Scalar.

Section Vector.
Variables (al : array (vec3 R)) (gr : array (mat3 R)) (f : vec3 R -> vec3 R).
Hypothesis Ha : array_on g al.
Hypothesis Hr : array_on g gr.
Hypothesis HS : samples ov dim n pad g al f.

Lemma vector_finish gr' val D : shaped g gr' ->
  (forall c, interior_cell (g_n g) c -> exists x y, peek g gr c = Ok x /\ peek g gr' c = Ok y /\
       forall r d, mget y r d = if used (g_dim g) r && used (g_dim g) d then val c r d else mget x r d) ->
  (forall c, gcell g c -> ~ interior_cell (g_n g) c -> peek g gr' c = peek g gr c) ->
  (forall i j k p r d, interior_cell n (i, j, k) -> node ov g i j k = Ok p -> used dim r = true -> used dim d = true -> val (i, j, k) r d = D p r d) ->
  mat_result ov dim n pad g gr gr' D.
Proof.
  intros S' Hi Ho HD. pose proof (built_ok _ _ _ _ _ _ _ Hb) as F. pose proof (bf_ok _ _ _ _ _ _ _ F) as Hg.
  rewrite (bf_n _ _ _ _ _ _ _ F) in Hi, Ho. rewrite (bf_dim _ _ _ _ _ _ _ F) in Hi.
  split; [apply (array_on_shaped _ _ _ _ _ _ _ _ Hb); exact S'|]. split.
  - intros i j k Hc. destruct (node_ok i j k Hc) as (p & Np). destruct (Hi _ Hc) as (x & y & Ex & Ey & V).
    assert (Hgc : gcell g (i, j, k)).
    { apply (built_gcell _ _ _ _ _ _ _ _ Hb). eapply interior_padded; [apply Hb|exact Hc]. }
    exists p, x, y. rewrite !(aget_peek_c ov) by auto. split; [exact Np|]. split; [exact Ex|]. split; [exact Ey|].
    intros r d. rewrite V. destruct (used dim r) eqn:Hu, (used dim d) eqn:Hu'; try reflexivity. apply HD; auto.
  - intros i j k Hp Hn. apply (built_gcell _ _ _ _ _ _ _ _ Hb) in Hp. rewrite !(aget_peek_c ov) by auto. apply Ho; auto.
Qed.

Lemma soc_vector_any : (1 <= pad)%Z -> exists gr', soc_vector ov g al g gr = Ok gr' /\
  mat_result ov dim n pad g gr gr' (fun p r d => (vget (f (along p r (h r))) r - vget (f (along p r (- h r))) r) / (2 * h d)).
Proof.
  intros Hp. pose proof (built_ok _ _ _ _ _ _ _ Hb) as F. pose proof (bf_ok _ _ _ _ _ _ _ F) as Hg.
  destruct (soc_vector_effect ov g Hg al gr) as (gr' & E & S' & _ & Hi & Ho);
    [rewrite (bf_pad _ _ _ _ _ _ _ F); lia|apply (array_on_shaped _ _ _ _ _ _ _ _ Hb); auto|apply (array_on_shaped _ _ _ _ _ _ _ _ Hb); auto|].
  exists gr'. split; [exact E|]. refine (vector_finish gr' (fun c r d => _) _ S' Hi Ho _).
  intros i j k p a d Hc Np Hu Hu'. cbv beta. unfold pk.
  rewrite (sampled_peek al f i j k p a 1 HS Hc Np Hu), (sampled_peek al f i j k p a (-1) HS Hc Np Hu) by lia.
  rewrite (built_dx _ _ _ _ _ _ _ d Hb). fold (h d). unfold soc_formula, half. cbn [nadd nsub nmul ndiv nofZ NumR].
  replace (1 * h a) with (h a) by ring. replace (-1 * h a) with (- h a) by ring. unfold Rdiv. rewrite Rinv_mult. lra.
Qed.

Lemma third_vector_any : (2 <= pad)%Z -> exists gr', third_vector ov g al g gr = Ok gr' /\
  mat_result ov dim n pad g gr gr' (fun p r d => (2 * vget (f (along p r (h r))) r + 3 * vget (f p) r - 6 * vget (f (along p r (- h r))) r
                                   + vget (f (along p r (- 2 * h r))) r) / (6 * h d)).
Proof.
  intros Hp. pose proof (built_ok _ _ _ _ _ _ _ Hb) as F. pose proof (bf_ok _ _ _ _ _ _ _ F) as Hg.
  destruct (third_vector_effect ov g Hg al gr) as (gr' & E & S' & _ & Hi & Ho);
    [rewrite (bf_pad _ _ _ _ _ _ _ F); lia|apply (array_on_shaped _ _ _ _ _ _ _ _ Hb); auto|apply (array_on_shaped _ _ _ _ _ _ _ _ Hb); auto|].
  exists gr'. split; [exact E|]. refine (vector_finish gr' (fun c r d => _) _ S' Hi Ho _).
  intros i j k p a d Hc Np Hu Hu'. cbv beta. unfold pk.
  rewrite (sampled_peek al f i j k p a 1 HS Hc Np Hu), (sampled_peek al f i j k p a (-1) HS Hc Np Hu), (sampled_peek al f i j k p a (-2) HS Hc Np Hu) by lia.
  rewrite (sampled_peek0 al f i j k p HS Hc Np).
  rewrite (built_dx _ _ _ _ _ _ _ d Hb). fold (h d). unfold third_formula. cbn [nadd nsub nmul ndiv nofZ NumR].
  replace (1 * h a) with (h a) by ring. replace (-1 * h a) with (- h a) by ring. unfold Rdiv. ring.
Qed.
End Vector.
End G.

(** *** polynomials *)
Lemma soc_cubic A x h : h <> 0 -> (cubic A (x + h) - cubic A (x + - h)) / (2 * h) = cubic' A x + h ^ 2 * A 3%nat.
Proof. intros Hh. unfold cubic, cubic'. field. exact Hh. Qed.
Lemma third_cubic A x h : h <> 0 ->
  (2 * cubic A (x + h) + 3 * cubic A x - 6 * cubic A (x + - h) + cubic A (x + - 2 * h)) / (6 * h) = cubic' A x.
Proof. intros Hh. unfold cubic, cubic'. field. exact Hh. Qed.

(** a cubic in one variable whose coefficients are cubics in another, seen as a cubic in the latter *)
Definition swap1 (d : nat -> nat -> R) x : nat -> R := fun j => cubic (fun i => d i j) x.
Lemma cubic_swap d x y : cubic (fun i => cubic (d i) y) x = cubic (swap1 d x) y.
Proof. unfold swap1, cubic. ring. Qed.
Lemma cubic'_swap d x y : cubic (fun i => cubic' (d i) y) x = cubic' (swap1 d x) y.
Proof. unfold swap1, cubic, cubic'. ring. Qed.
Lemma cubic_ext a b x : (forall i, a i = b i) -> cubic a x = cubic b x.
Proof. intros H. unfold cubic. rewrite !H. reflexivity. Qed.

Definition axcoef (a : axis) (c : nat -> nat -> nat -> R) (p : vec3 R) : nat -> R :=
  match a with
  | AX => fun i => cubic (fun j => cubic (c i j) (vz p)) (vy p)
  | AY => swap1 (fun i j => cubic (c i j) (vz p)) (vx p)
  | AZ => swap1 (fun i => swap1 (fun j k => c i j k) (vy p)) (vx p)
  end.
Lemma poly_along c p a t : poly c (along p a t) = cubic (axcoef a c p) (vget p a + t).
Proof.
  destruct a; unfold along, poly, tricubic, P1, axcoef; destruct p as [x y z]; cbn [vset vget vx vy vz].
  - reflexivity.
  - apply cubic_swap.
  - rewrite <- cubic_swap. apply cubic_ext. intros i. apply cubic_swap.
Qed.
Lemma dpoly_along c p a : dpoly a c p = cubic' (axcoef a c p) (vget p a).
Proof.
  destruct a; unfold dpoly, tricubic, P1, axcoef; destruct p as [x y z]; cbn [vset vget vx vy vz].
  - reflexivity.
  - apply cubic'_swap.
  - rewrite <- cubic'_swap. apply cubic_ext. intros i. apply cubic'_swap.
Qed.
Lemma third_along c p a : third_coeff a c p = axcoef a c p 3%nat.
Proof. destruct a; reflexivity. Qed.
Lemma along0 p a : along p a 0 = p.
Proof. unfold along. destruct p, a; cbn; rewrite Rplus_0_r; reflexivity. Qed.

Lemma soc_poly c p a h : h <> 0 ->
  (poly c (along p a h) - poly c (along p a (- h))) / (2 * h) = dpoly a c p + h ^ 2 * third_coeff a c p.
Proof. intros Hh. rewrite !poly_along, dpoly_along, third_along. apply soc_cubic. exact Hh. Qed.
Lemma third_poly c p a h : h <> 0 ->
  (2 * poly c (along p a h) + 3 * poly c p - 6 * poly c (along p a (- h)) + poly c (along p a (- 2 * h))) / (6 * h) = dpoly a c p.
Proof.
  intros Hh. rewrite <- (along0 p a) at 2. rewrite !poly_along, dpoly_along, Rplus_0_r. apply third_cubic. exact Hh.
Qed.
Lemma degree2_third c p a : degree2 c -> third_coeff a c p = 0.
Proof.
  intros H. destruct a; unfold third_coeff, cubic.
  - rewrite !(fun i j => proj1 (H i j)). ring.
  - rewrite !(fun i j => proj1 (proj2 (H i j))). ring.
  - rewrite !(fun i j => proj2 (proj2 (H i j))). ring.
Qed.
Lemma vpoly_get c p a : vget (vpoly c p) a = poly (c a) p.
Proof. destruct a; reflexivity. Qed.
