(** Gradient properties in the form in which they are stated. *)
From Coq Require Import ZArith List Bool Lia Reals Lra.
From Verif Require Import Base Num ModelVec ModelGrid ModelArray ModelGradient SpecGrid SpecInterp SpecGradient
  ProofsBase ProofsGrid ProofsArray ProofsGridProps ProofsInterp ProofsInterpApi ProofsGradient ProofsGradientR ProofsGradientOob ProofsTaylor.
Open Scope R_scope.

Lemma samples_exists {A} ov dim n pad bmin bmax (g : grid R) (f : vec3 R -> A) : built ov dim n pad bmin bmax g ->
  exists al, array_on g al /\ samples ov dim n pad g al f.
Proof.
  intros Hb. pose proof (built_ok _ _ _ _ _ _ _ Hb) as F. pose proof (bf_ok _ _ _ _ _ _ _ F) as Hg.
  destruct (array_of ov g (fun c => match c with (i, j, k) => match node ov g i j k with Ok p => f p | _ => f (V3 0 0 0) end end) Hg) as (al & S & P & _).
  exists al. split; [apply (array_on_shaped _ _ _ _ _ _ _ _ Hb); exact S|].
  intros i j k Hp. destruct (node_position _ _ _ _ _ _ _ _ _ _ Hb Hp) as (p & Ep & _). exists p. split; [exact Ep|].
  assert (Hc : gcell g (i, j, k)) by (apply (built_gcell _ _ _ _ _ _ _ _ Hb); exact Hp).
  rewrite (aget_peek_c ov) by auto. rewrite P by auto. rewrite Ep. reflexivity.
Qed.

Lemma grad_result_ext ov dim n pad g gr gr' D D' : (forall p a, used dim a = true -> D p a = D' p a) ->
  grad_result ov dim n pad g gr gr' D -> grad_result ov dim n pad g gr gr' D'.
Proof.
  intros H (A & B & C). split; [exact A|]. split; [|exact C]. intros i j k Hc.
  destruct (B i j k Hc) as (p & x & y & E1 & E2 & E3 & E4). exists p, x, y. split; [auto|]. split; [auto|]. split; [auto|].
  intros a. rewrite E4. destruct (used dim a) eqn:U; auto.
Qed.
Lemma mat_result_ext ov dim n pad g gr gr' D D' : (forall p r d, used dim r = true -> used dim d = true -> D p r d = D' p r d) ->
  mat_result ov dim n pad g gr gr' D -> mat_result ov dim n pad g gr gr' D'.
Proof.
  intros H (A & B & C). split; [exact A|]. split; [|exact C]. intros i j k Hc.
  destruct (B i j k Hc) as (p & x & y & E1 & E2 & E3 & E4). exists p, x, y. split; [auto|]. split; [auto|]. split; [auto|].
  intros r d. rewrite E4. destruct (used dim r) eqn:U, (used dim d) eqn:V; cbn [andb]; auto.
Qed.

Section P.
Variables (ov : ovmode) (dim : nat) (n : vec3 Z) (pad : Z) (bmin bmax : vec3 R) (g : grid R).
Hypothesis Hb : built ov dim n pad bmin bmax g.
Hypothesis Hbox : proper_box dim bmin bmax.
Let h a := spacing (vget bmin a) (vget bmax a) (vget n a).

Lemma h_used a : used dim a = true -> 0 < h a.
Proof.
  intros U. unfold h, spacing. assert (0 < IZR (vget n a)).
  { apply (IZR_lt 0). pose proof (proj1 (proj2 (proj2 (proj1 Hb))) a) as K. rewrite U in K. lia. }
  apply Rdiv_lt_0_compat; [|auto]. specialize (Hbox a U). lra.
Qed.

Lemma soc_cubics al gr c : array_on g al -> array_on g gr -> samples ov dim n pad g al (poly c) -> (1 <= pad)%Z ->
  exists gr', soc_scalar ov g al g gr = Ok gr' /\
    grad_result ov dim n pad g gr gr' (fun p a => dpoly a c p + spacing (vget bmin a) (vget bmax a) (vget n a) ^ 2 * third_coeff a c p).
Proof.
  intros Ha Hr HS Hp. destruct (soc_any _ _ _ _ _ _ _ Hb al gr _ Ha Hr HS Hp) as (gr' & E & R). exists gr'. split; [exact E|].
  eapply grad_result_ext; [|exact R]. intros p a U. cbv beta. pose proof (h_used a U) as H. unfold h in H. apply soc_poly. lra.
Qed.
Lemma soc_exact al gr c : array_on g al -> array_on g gr -> samples ov dim n pad g al (poly c) -> degree2 c -> (1 <= pad)%Z ->
  exists gr', soc_scalar ov g al g gr = Ok gr' /\ grad_result ov dim n pad g gr gr' (fun p a => dpoly a c p).
Proof.
  intros Ha Hr HS Hd Hp. destruct (soc_cubics al gr c Ha Hr HS Hp) as (gr' & E & R). exists gr'. split; [exact E|].
  eapply grad_result_ext; [|exact R]. intros p a U. cbv beta. rewrite (degree2_third c p a Hd). ring.
Qed.
Lemma third_exact al gr c : array_on g al -> array_on g gr -> samples ov dim n pad g al (poly c) -> (2 <= pad)%Z ->
  exists gr', third_scalar ov g al g gr = Ok gr' /\ grad_result ov dim n pad g gr gr' (fun p a => dpoly a c p).
Proof.
  intros Ha Hr HS Hp. destruct (third_any _ _ _ _ _ _ _ Hb al gr _ Ha Hr HS Hp) as (gr' & E & R). exists gr'. split; [exact E|].
  eapply grad_result_ext; [|exact R]. intros p a U. cbv beta. pose proof (h_used a U) as H. unfold h in H. apply third_poly. lra.
Qed.

(** *** order of accuracy *)
Lemma soc_error al gr f D M : array_on g al -> array_on g gr -> samples ov dim n pad g al f -> (1 <= pad)%Z ->
  (forall i j k p a, interior_cell n (i, j, k) -> node ov g i j k = Ok p -> used dim a = true ->
     exists d1 d2 d3, derivs (- h a) (h a) (fun t => f (along p a t)) [d1; d2; d3] /\ d1 0 = D p a /\
       forall t, - h a <= t <= h a -> Rabs (d3 t) <= M) ->
  exists gr', soc_scalar ov g al g gr = Ok gr' /\
    forall i j k, interior_cell n (i, j, k) -> exists p y, node ov g i j k = Ok p /\ aget ov g gr' i j k = Ok y /\
      forall a, used dim a = true -> Rabs (vget y a - D p a) <= M / 6 * h a ^ 2.
Proof.
  intros Ha Hr HS Hp HD. destruct (soc_any _ _ _ _ _ _ _ Hb al gr _ Ha Hr HS Hp) as (gr' & E & _ & R & _). exists gr'. split; [exact E|].
  intros i j k Hc. destruct (R i j k Hc) as (p & x & y & E1 & _ & E3 & E4). exists p, y. split; [exact E1|]. split; [exact E3|].
  intros a U. rewrite E4, U. destruct (HD i j k p a Hc E1 U) as (d1 & d2 & d3 & HDD & E0 & HM). rewrite <- E0.
  change (Rabs ((f (along p a (h a)) - f (along p a (- h a))) / (2 * h a) - d1 0) <= M / 6 * h a ^ 2).
  apply (soc_order (h a) M (fun t => f (along p a t)) d1 d2 d3); auto. apply h_used; auto.
Qed.
Lemma third_error al gr f D M : array_on g al -> array_on g gr -> samples ov dim n pad g al f -> (2 <= pad)%Z ->
  (forall i j k p a, interior_cell n (i, j, k) -> node ov g i j k = Ok p -> used dim a = true ->
     exists d1 d2 d3 d4, derivs (- (2 * h a)) (h a) (fun t => f (along p a t)) [d1; d2; d3; d4] /\ d1 0 = D p a /\
       forall t, - (2 * h a) <= t <= h a -> Rabs (d4 t) <= M) ->
  exists gr', third_scalar ov g al g gr = Ok gr' /\
    forall i j k, interior_cell n (i, j, k) -> exists p y, node ov g i j k = Ok p /\ aget ov g gr' i j k = Ok y /\
      forall a, used dim a = true -> Rabs (vget y a - D p a) <= M / 6 * h a ^ 3.
Proof.
  intros Ha Hr HS Hp HD. destruct (third_any _ _ _ _ _ _ _ Hb al gr _ Ha Hr HS Hp) as (gr' & E & _ & R & _). exists gr'. split; [exact E|].
  intros i j k Hc. destruct (R i j k Hc) as (p & x & y & E1 & _ & E3 & E4). exists p, y. split; [exact E1|]. split; [exact E3|].
  intros a U. rewrite E4, U. destruct (HD i j k p a Hc E1 U) as (d1 & d2 & d3 & d4 & HDD & E0 & HM). rewrite <- E0.
  rewrite <- (along0 p a) at 2.
  apply (third_order (h a) M (fun t => f (along p a t)) d1 d2 d3 d4); auto. apply h_used; auto.
Qed.

(** *** vector fields *)
Lemma soc_vexact al gr c : array_on g al -> array_on g gr -> samples ov dim n pad g al (vpoly c) -> (forall r, degree2 (c r)) -> (1 <= pad)%Z ->
  exists gr', soc_vector ov g al g gr = Ok gr' /\ mat_result ov dim n pad g gr gr' (fun p r d => h r / h d * dpoly r (c r) p).
Proof.
  intros Ha Hr HS Hd Hp. destruct (soc_vector_any _ _ _ _ _ _ _ Hb al gr _ Ha Hr HS Hp) as (gr' & E & R). exists gr'. split; [exact E|].
  eapply mat_result_ext; [|exact R]. intros p r d U V. cbv beta.
  fold (h r). fold (h d). pose proof (h_used r U) as H. pose proof (h_used d V) as H'. rewrite !vpoly_get.
  assert (K : (poly (c r) (along p r (h r)) - poly (c r) (along p r (- h r))) / (2 * h r) = dpoly r (c r) p).
  { rewrite soc_poly by lra. rewrite degree2_third by apply Hd. ring. }
  rewrite <- K. field. lra.
Qed.
Lemma third_vexact al gr c : array_on g al -> array_on g gr -> samples ov dim n pad g al (vpoly c) -> (2 <= pad)%Z ->
  exists gr', third_vector ov g al g gr = Ok gr' /\ mat_result ov dim n pad g gr gr' (fun p r d => h r / h d * dpoly r (c r) p).
Proof.
  intros Ha Hr HS Hp. destruct (third_vector_any _ _ _ _ _ _ _ Hb al gr _ Ha Hr HS Hp) as (gr' & E & R). exists gr'. split; [exact E|].
  eapply mat_result_ext; [|exact R]. intros p r d U V. cbv beta.
  fold (h r). fold (h d). pose proof (h_used r U) as H. pose proof (h_used d V) as H'. rewrite !vpoly_get.
  assert (K : (2 * poly (c r) (along p r (h r)) + 3 * poly (c r) p - 6 * poly (c r) (along p r (- h r)) + poly (c r) (along p r (-2 * h r))) / (6 * h r) = dpoly r (c r) p)
    by (apply third_poly; lra).
  rewrite <- K. field. lra.
Qed.

(** the field (x,0,0): the off-diagonal entry (0,1) is not the derivative, in any interior cell *)
Definition ramp (r : axis) (i j k : nat) : R := match r, i, j, k with AX, 1%nat, O, O => 1 | _, _, _, _ => 0 end.
Lemma ramp_degree2 r : degree2 (ramp r).
Proof. intros i j. destruct r; cbn; repeat split; auto; destruct i as [|[|]]; auto; destruct j; auto. Qed.
Lemma ramp_x p : vpoly ramp p = V3 (vx p) 0 0.
Proof. unfold vpoly, poly, tricubic, P1, cubic, ramp. f_equal; ring. Qed.
Lemma ramp_dx p : dpoly AX (ramp AX) p = 1.
Proof. unfold dpoly, tricubic, P1, cubic, cubic', ramp. ring. Qed.
Lemma ramp_dy p : dpoly AY (ramp AX) p = 0.
Proof. unfold dpoly, tricubic, P1, cubic, cubic', ramp. ring. Qed.

Lemma ramp_wrong gr gr' : mat_result ov dim n pad g gr gr' (fun p r d => h r / h d * dpoly r (ramp r) p) -> (2 <= dim)%nat ->
  forall i j k, interior_cell n (i, j, k) -> exists p y, node ov g i j k = Ok p /\ aget ov g gr' i j k = Ok y /\
    mget y AX AY = h AX / h AY /\ mget y AX AY <> dpoly AY (ramp AX) p.
Proof.
  intros (_ & R & _) Hd i j k Hc. destruct (R i j k Hc) as (p & x & y & E1 & _ & E3 & E4). exists p, y. split; [exact E1|]. split; [exact E3|].
  assert (U : used dim AY = true) by (apply Nat.leb_le; exact Hd).
  pose proof (E4 AX AY) as E. rewrite U in E. cbn [used andb] in E. rewrite ramp_dx, Rmult_1_r in E. split; [exact E|].
  rewrite E, ramp_dy. apply Rgt_not_eq. apply Rdiv_lt_0_compat; apply h_used; auto.
Qed.
End P.

Lemma soc_vector_wrong ov dim n pad bmin bmax (g : grid R) al gr :
  built ov dim n pad bmin bmax g -> proper_box dim bmin bmax -> (2 <= dim)%nat -> (1 <= pad)%Z ->
  array_on g al -> array_on g gr -> samples ov dim n pad g al (vpoly ramp) ->
  exists gr', soc_vector ov g al g gr = Ok gr' /\
  forall i j k, interior_cell n (i, j, k) -> exists p y, node ov g i j k = Ok p /\ aget ov g gr' i j k = Ok y /\
    mget y AX AY = spacing (vx bmin) (vx bmax) (vx n) / spacing (vy bmin) (vy bmax) (vy n) /\ mget y AX AY <> dpoly AY (ramp AX) p.
Proof.
  intros Hb Hbox Hd Hp Ha Hr HS.
  destruct (soc_vexact _ _ _ _ _ _ _ Hb Hbox al gr ramp Ha Hr HS ramp_degree2 Hp) as (gr' & E & R). exists gr'. split; [exact E|].
  exact (ramp_wrong _ _ _ _ _ _ _ Hb Hbox gr gr' R Hd).
Qed.
Lemma third_vector_wrong ov dim n pad bmin bmax (g : grid R) al gr :
  built ov dim n pad bmin bmax g -> proper_box dim bmin bmax -> (2 <= dim)%nat -> (2 <= pad)%Z ->
  array_on g al -> array_on g gr -> samples ov dim n pad g al (vpoly ramp) ->
  exists gr', third_vector ov g al g gr = Ok gr' /\
  forall i j k, interior_cell n (i, j, k) -> exists p y, node ov g i j k = Ok p /\ aget ov g gr' i j k = Ok y /\
    mget y AX AY = spacing (vx bmin) (vx bmax) (vx n) / spacing (vy bmin) (vy bmax) (vy n) /\ mget y AX AY <> dpoly AY (ramp AX) p.
Proof.
  intros Hb Hbox Hd Hp Ha Hr HS.
  destruct (third_vexact _ _ _ _ _ _ _ Hb Hbox al gr ramp Ha Hr HS Hp) as (gr' & E & R). exists gr'. split; [exact E|].
  exact (ramp_wrong _ _ _ _ _ _ _ Hb Hbox gr gr' R Hd).
Qed.

(** *** default padding *)
Section D.
Context {T : Type} {NT : Num T}.
Lemma soc_default ov dim n pad bmin bmax (g : grid T) (al : array T) gr : built ov dim n pad bmin bmax g -> (1 <= pad)%Z -> array_on g al -> array_on g gr ->
  exists gr', soc_scalar ov g al g gr = Ok gr'.
Proof.
  intros Hb Hp Ha Hr. pose proof (built_ok _ _ _ _ _ _ _ Hb) as F.
  destruct (soc_scalar_effect ov g (bf_ok _ _ _ _ _ _ _ F) al gr) as (gr' & E & _);
    [rewrite (bf_pad _ _ _ _ _ _ _ F); lia|apply (array_on_shaped _ _ _ _ _ _ _ _ Hb); auto|apply (array_on_shaped _ _ _ _ _ _ _ _ Hb); auto|].
  exists gr'. exact E.
Qed.
Lemma soc_vdefault ov dim n pad bmin bmax (g : grid T) (al : array (vec3 T)) gr : built ov dim n pad bmin bmax g -> (1 <= pad)%Z -> array_on g al -> array_on g gr ->
  exists gr', soc_vector ov g al g gr = Ok gr'.
Proof.
  intros Hb Hp Ha Hr. pose proof (built_ok _ _ _ _ _ _ _ Hb) as F.
  destruct (soc_vector_effect ov g (bf_ok _ _ _ _ _ _ _ F) al gr) as (gr' & E & _);
    [rewrite (bf_pad _ _ _ _ _ _ _ F); lia|apply (array_on_shaped _ _ _ _ _ _ _ _ Hb); auto|apply (array_on_shaped _ _ _ _ _ _ _ _ Hb); auto|].
  exists gr'. exact E.
Qed.
Lemma third_default ov dim n bmin bmax (g : grid T) (al : array T) gr : built ov dim n 1 bmin bmax g -> array_on g al -> array_on g gr ->
  third_scalar ov g al g gr = UB OutOfBounds.
Proof.
  intros Hb Ha Hr. pose proof (built_ok _ _ _ _ _ _ _ Hb) as F.
  apply third_scalar_oob; [apply (bf_ok _ _ _ _ _ _ _ F)|apply (bf_pad _ _ _ _ _ _ _ F)| |]; apply (array_on_shaped _ _ _ _ _ _ _ _ Hb); auto.
Qed.
Lemma third_vdefault ov dim n bmin bmax (g : grid T) (al : array (vec3 T)) gr : built ov dim n 1 bmin bmax g -> array_on g al -> array_on g gr ->
  third_vector ov g al g gr = UB OutOfBounds.
Proof.
  intros Hb Ha Hr. pose proof (built_ok _ _ _ _ _ _ _ Hb) as F.
  apply third_vector_oob; [apply (bf_ok _ _ _ _ _ _ _ F)|apply (bf_pad _ _ _ _ _ _ _ F)| |]; apply (array_on_shaped _ _ _ _ _ _ _ _ Hb); auto.
Qed.
Lemma third_pad2 ov dim n pad bmin bmax (g : grid T) (al : array T) gr : built ov dim n pad bmin bmax g -> (2 <= pad)%Z -> array_on g al -> array_on g gr ->
  exists gr', third_scalar ov g al g gr = Ok gr'.
Proof.
  intros Hb Hp Ha Hr. pose proof (built_ok _ _ _ _ _ _ _ Hb) as F.
  destruct (third_scalar_effect ov g (bf_ok _ _ _ _ _ _ _ F) al gr) as (gr' & E & _);
    [rewrite (bf_pad _ _ _ _ _ _ _ F); lia|apply (array_on_shaped _ _ _ _ _ _ _ _ Hb); auto|apply (array_on_shaped _ _ _ _ _ _ _ _ Hb); auto|].
  exists gr'. exact E.
Qed.
Lemma third_vpad2 ov dim n pad bmin bmax (g : grid T) (al : array (vec3 T)) gr : built ov dim n pad bmin bmax g -> (2 <= pad)%Z -> array_on g al -> array_on g gr ->
  exists gr', third_vector ov g al g gr = Ok gr'.
Proof.
  intros Hb Hp Ha Hr. pose proof (built_ok _ _ _ _ _ _ _ Hb) as F.
  destruct (third_vector_effect ov g (bf_ok _ _ _ _ _ _ _ F) al gr) as (gr' & E & _);
    [rewrite (bf_pad _ _ _ _ _ _ _ F); lia|apply (array_on_shaped _ _ _ _ _ _ _ _ Hb); auto|apply (array_on_shaped _ _ _ _ _ _ _ _ Hb); auto|].
  exists gr'. exact E.
Qed.
End D.

Lemma samples_ext {A} ov dim n pad g (al : array A) f f' : (forall p, f p = f' p) -> samples ov dim n pad g al f -> samples ov dim n pad g al f'.
Proof. intros E H i j k Hp. destruct (H i j k Hp) as (p & E1 & E2). exists p. rewrite <- E. auto. Qed.

Lemma soc_vector_bad ov dim n pad bmin bmax (g : grid R) al gr :
  built ov dim n pad bmin bmax g -> proper_box dim bmin bmax -> (2 <= dim)%nat -> (1 <= pad)%Z ->
  array_on g al -> array_on g gr -> samples ov dim n pad g al (fun p => V3 (vx p) 0 0) ->
  exists gr', soc_vector ov g al g gr = Ok gr' /\
  forall i j k, interior_cell n (i, j, k) -> exists y, aget ov g gr' i j k = Ok y /\
    mget y AX AY = spacing (vx bmin) (vx bmax) (vx n) / spacing (vy bmin) (vy bmax) (vy n) /\ mget y AX AY <> 0.
Proof.
  intros Hb Hbox Hd Hp Ha Hr HS. apply (samples_ext _ _ _ _ _ _ _ (vpoly ramp)) in HS; [|intros; symmetry; apply ramp_x].
  destruct (soc_vector_wrong _ _ _ _ _ _ _ _ _ Hb Hbox Hd Hp Ha Hr HS) as (gr' & E & R). exists gr'. split; [exact E|].
  intros i j k Hc. destruct (R i j k Hc) as (p & y & _ & E1 & E2 & E3). rewrite ramp_dy in E3. exists y. auto.
Qed.
Lemma third_vector_bad ov dim n pad bmin bmax (g : grid R) al gr :
  built ov dim n pad bmin bmax g -> proper_box dim bmin bmax -> (2 <= dim)%nat -> (2 <= pad)%Z ->
  array_on g al -> array_on g gr -> samples ov dim n pad g al (fun p => V3 (vx p) 0 0) ->
  exists gr', third_vector ov g al g gr = Ok gr' /\
  forall i j k, interior_cell n (i, j, k) -> exists y, aget ov g gr' i j k = Ok y /\
    mget y AX AY = spacing (vx bmin) (vx bmax) (vx n) / spacing (vy bmin) (vy bmax) (vy n) /\ mget y AX AY <> 0.
Proof.
  intros Hb Hbox Hd Hp Ha Hr HS. apply (samples_ext _ _ _ _ _ _ _ (vpoly ramp)) in HS; [|intros; symmetry; apply ramp_x].
  destruct (third_vector_wrong _ _ _ _ _ _ _ _ _ Hb Hbox Hd Hp Ha Hr HS) as (gr' & E & R). exists gr'. split; [exact E|].
  intros i j k Hc. destruct (R i j k Hc) as (p & y & _ & E1 & E2 & E3). rewrite ramp_dy in E3. exists y. auto.
Qed.

(** *** a non-polynomial field for the error bounds *)
Lemma sin_at p t : vx (along p AX t) = vx p + t.
Proof. reflexivity. Qed.
Lemma d_shift f d x t : derivable_pt_lim f (x + t) d -> derivable_pt_lim (fun t => f (x + t)) t d.
Proof.
  intros H. replace d with (d * 1) by ring. apply (derivable_pt_lim_comp (fun t => x + t) f); [|exact H].
  eapply d_eq; [apply (derivable_pt_lim_plus (fun _ => x) id); [apply d_const|apply derivable_pt_lim_id]|ring].
Qed.
Lemma sin_derivs p lo hi : derivs lo hi (fun t => sin (vx (along p AX t)))
   [fun t => cos (vx p + t); fun t => - sin (vx p + t); fun t => - cos (vx p + t); fun t => sin (vx p + t)].
Proof.
  cbn [derivs]. split; [|split; [|split; [|split; [|exact I]]]]; intros t _.
  - apply (d_shift sin). apply derivable_pt_lim_sin.
  - apply (d_shift cos). apply derivable_pt_lim_cos.
  - apply (derivable_pt_lim_opp (fun t => sin (vx p + t))). apply (d_shift sin). apply derivable_pt_lim_sin.
  - replace (sin (vx p + t)) with (- - sin (vx p + t)) by ring.
    apply (derivable_pt_lim_opp (fun t => cos (vx p + t))). apply (d_shift cos). apply derivable_pt_lim_cos.
Qed.
Lemma derivs_init lo hi f a b c d : derivs lo hi f [a; b; c; d] -> derivs lo hi f [a; b; c].
Proof. cbn. tauto. Qed.
Lemma sin_case p lo hi : exists d1 d2 d3, derivs lo hi (fun t => sin (vx (along p AX t))) [d1; d2; d3] /\ d1 0 = cos (vx p) /\
  forall t, lo <= t <= hi -> Rabs (d3 t) <= 1.
Proof.
  do 3 eexists. split; [eapply derivs_init; apply sin_derivs|]. split; [cbv beta; rewrite Rplus_0_r; reflexivity|].
  intros t _. cbv beta. rewrite Rabs_Ropp. apply Rabs_le. pose proof (COS_bound (vx p + t)). lra.
Qed.
Lemma sin_case4 p lo hi : exists d1 d2 d3 d4, derivs lo hi (fun t => sin (vx (along p AX t))) [d1; d2; d3; d4] /\ d1 0 = cos (vx p) /\
  forall t, lo <= t <= hi -> Rabs (d4 t) <= 1.
Proof.
  do 4 eexists. split; [apply sin_derivs|]. split; [cbv beta; rewrite Rplus_0_r; reflexivity|].
  intros t _. cbv beta. apply Rabs_le. pose proof (SIN_bound (vx p + t)). lra.
Qed.
Lemma used1 a : used 1 a = true -> a = AX.
Proof. destruct a; cbn; congruence. Qed.

(** concrete cases *)
Lemma grad_case {A B} ov dim n pad (f : vec3 R -> A) (b : B) : good_sizes dim n pad -> arith_ok ov dim n pad ->
  exists g al gr, built ov dim n pad lo1 hi1 g /\ proper_box dim lo1 hi1 /\ array_on g al /\ array_on g (gr : array B) /\
    samples ov dim n pad g al f.
Proof.
  intros Hs Ha. destruct (built_exists (T := R) ov dim n pad lo1 hi1 Hs Ha) as (g & Hb).
  destruct (samples_exists ov dim n pad lo1 hi1 g f Hb) as (al & Ea & ES).
  destruct (samples_exists ov dim n pad lo1 hi1 g (fun _ => b) Hb) as (gr & Eg & _).
  exists g, al, gr. split; [exact Hb|]. split; [apply unit_box|]. auto.
Qed.
Lemma good_1dp2 : good_sizes 1 (V3 5 1 1)%Z 2 /\ arith_ok Trap 1 (V3 5 1 1)%Z 2.
Proof.
  split; [split; [lia|]; split; [lia|]; split; [intros [| |]; cbn; lia|]; cbn; unfold INT_MAX; lia|].
  cbn. right. cbn. unfold INT_MAX. lia.
Qed.
Lemma third_iff {T} {NT : Num T} ov dim n pad bmin bmax (g : grid T) (al : array T) gr :
  built ov dim n pad bmin bmax g -> (1 <= pad)%Z -> array_on g al -> array_on g gr ->
  ((exists gr', third_scalar ov g al g gr = Ok gr') <-> (2 <= pad)%Z) /\ (pad = 1%Z -> third_scalar ov g al g gr = UB OutOfBounds).
Proof.
  intros Hb Hp Ha Hr. split; [split|].
  - intros (gr' & E). destruct (Z.eq_dec pad 1) as [->|]; [|lia]. rewrite (third_default _ _ _ _ _ _ _ _ Hb Ha Hr) in E. discriminate.
  - intros H. eapply third_pad2; eauto.
  - intros ->. eapply third_default; eauto.
Qed.
Lemma third_viff {T} {NT : Num T} ov dim n pad bmin bmax (g : grid T) (al : array (vec3 T)) gr :
  built ov dim n pad bmin bmax g -> (1 <= pad)%Z -> array_on g al -> array_on g gr ->
  ((exists gr', third_vector ov g al g gr = Ok gr') <-> (2 <= pad)%Z) /\ (pad = 1%Z -> third_vector ov g al g gr = UB OutOfBounds).
Proof.
  intros Hb Hp Ha Hr. split; [split|].
  - intros (gr' & E). destruct (Z.eq_dec pad 1) as [->|]; [|lia]. rewrite (third_vdefault _ _ _ _ _ _ _ _ Hb Ha Hr) in E. discriminate.
  - intros H. eapply third_vpad2; eauto.
  - intros ->. eapply third_vdefault; eauto.
Qed.
