(** Gradient schemes: effect of the loops, exactness on polynomials, out-of-range reads. *)
From Coq Require Import ZArith List Lia Bool Reals Lra.
From Verif Require Import Base Num ModelVec ModelGrid ModelArray ModelGradient
  SpecGrid SpecInterp SpecGradient ProofsBase ProofsGrid ProofsArray ProofsGridProps ProofsLoops ProofsInterpMore ProofsInterpApi.
Open Scope Z_scope.

Section Effect.
Context {T : Type} {NT : Num T}.

Lemma ashift_ok {A} ov (g : grid T) (al : array A) i j k a s : okgrid ov g ->
  interior_cell (g_n g) (i, j, k) -> used (g_dim g) a = true -> - g_pad g <= s <= g_pad g ->
  gcell g (cshift (i, j, k) a s) /\ ashift ov g al i j k a s = peek g al (cshift (i, j, k) a s).
Proof.
  intros Hg Hi Hu Hs.
  assert (Hp : gcell g (cshift (i, j, k) a s)).
  { pose proof (interior_padded _ _ (g_pad g) _ (proj1 Hg) Hi) as Hp. intros b. specialize (Hp b). pose proof (Hi b) as Hb.
    destruct a, b; cbn [cshift ccoord] in *; try (rewrite Hu; lia); auto. }
  split; [exact Hp|].
  assert (HM : INT_MAX = 2147483647) by reflexivity. assert (Hm : INT_MIN = -2147483648) by reflexivity.
  assert (HI : forall b z, used (g_dim g) b = true \/ z = 0 -> - g_pad g <= z <= g_pad g -> chk ov (ccoord (i, j, k) b + z) = Ok (ccoord (i, j, k) b + z)).
  { intros b z Hz Hr. apply chk_fit. specialize (Hi b). pose proof (good_int _ _ _ b (proj1 Hg)) as (G1 & G2 & G3).
    destruct Hz as [Hz|Hz]; [|lia]. unfold extent in G3. rewrite Hz in G3. lia. }
  pose proof (proj1 (proj2 (proj1 Hg))) as Hpad.
  pose proof (HI AX) as IX; pose proof (HI AY) as IY; pose proof (HI AZ) as IZ. cbn [ccoord] in IX, IY, IZ.
  unfold ashift, iadd, ev. destruct a; cbn [axis_eqb].
  - rewrite Z.mul_1_r, !Z.mul_0_r. rewrite IX by auto. cbn [bind]. rewrite IY by (auto; lia). cbn [bind].
    rewrite IZ by (auto; lia). cbn [bind]. rewrite !Z.add_0_r. apply (aget_peek_c ov); auto.
  - rewrite Z.mul_1_r, !Z.mul_0_r. rewrite IX by (auto; lia). cbn [bind]. rewrite IY by auto. cbn [bind].
    rewrite IZ by (auto; lia). cbn [bind]. rewrite !Z.add_0_r. apply (aget_peek_c ov); auto.
  - rewrite Z.mul_1_r, !Z.mul_0_r. rewrite IX by (auto; lia). cbn [bind]. rewrite IY by (auto; lia). cbn [bind].
    rewrite IZ by auto. cbn [bind]. rewrite !Z.add_0_r. apply (aget_peek_c ov); auto.
Qed.

Lemma in_axes dim a : (1 <= dim <= 3)%nat -> In a (axes dim) <-> used dim a = true.
Proof. intros Hd. dim_cases Hd; destruct a; cbn; intuition congruence. Qed.
Lemma axes_nonempty dim : axes dim <> [].
Proof. destruct dim as [|[|[|]]]; discriminate. Qed.

Lemma fold_vset (val : axis -> T) dim (x : vec3 T) a : (1 <= dim <= 3)%nat ->
  vget (fold_left (fun x a => vset x a (val a)) (axes dim) x) a = if used dim a then val a else vget x a.
Proof. intros Hd. dim_cases Hd; destruct a; reflexivity. Qed.
Lemma fold_mset (val : axis -> axis -> T) dim (x : mat3 T) r c : (1 <= dim <= 3)%nat ->
  mget (fold_left (fun x rc => mset x (fst rc) (snd rc) (val (fst rc) (snd rc))) (list_prod (axes dim) (axes dim)) x) r c =
  if used dim r && used dim c then val r c else mget x r c.
Proof. intros Hd. dim_cases Hd; destruct r, c; reflexivity. Qed.

(** effect of a loop that sets the used components of each interior cell *)
Lemma scalar_loop ov (g : grid T) (gr : array (vec3 T)) (val : cell -> axis -> T) body :
  okgrid ov g -> shaped g gr ->
  (forall s c a x, interior_cell (g_n g) c -> used (g_dim g) a = true -> shaped g s -> peek g s c = Ok x ->
     body s c a = Ok (poke g s c (vset x a (val c a)))) ->
  exists gr', forM (interior (g_n g)) (fun gr c => forM (axes (g_dim g)) (fun gr a => body gr c a) gr) gr = Ok gr' /\
    shaped g gr' /\ a_pad gr' = a_pad gr /\
    (forall c, interior_cell (g_n g) c -> exists x y, peek g gr c = Ok x /\ peek g gr' c = Ok y /\
       forall a, vget y a = if used (g_dim g) a then val c a else vget x a) /\
    (forall c, gcell g c -> ~ interior_cell (g_n g) c -> peek g gr' c = peek g gr c).
Proof.
  intros Hg Hs Hb. pose proof (proj1 (proj1 Hg)) as Hd.
  assert (HU : forall c, In c (interior (g_n g)) -> gcell g c).
  { intros c Hc. apply in_interior in Hc. eapply interior_padded; [apply Hg|exact Hc]. }
  destruct (loop_cells ov g (fun c x => fold_left (fun x a => vset x a (val c a)) (axes (g_dim g)) x)
     (fun gr c => forM (axes (g_dim g)) (fun gr a => body gr c a) gr) (interior (g_n g)) gr) as (gr' & E & S' & P' & Hi & Ho); auto.
  - apply interior_nodup.
  - intros s c x Ss _ Hc Hx. apply (forM_fold_cell ov g (fun a x => vset x a (val c a)) (fun s a => body s c a) c); auto.
    + intros s' a x' Ha Ss' Hx'. apply Hb; auto; [apply in_interior; exact Hc|apply in_axes; auto].
    + apply axes_nonempty.
  - exists gr'. split; [exact E|]. split; [exact S'|]. split; [exact P'|]. split.
    + intros c Hc. apply in_interior in Hc. destruct (peek_ok ov g gr c Hg Hs (HU c Hc)) as (x & Ex).
      exists x. eexists. split; [exact Ex|]. split; [apply (Hi c x Hc Ex)|]. intros a. apply fold_vset; auto.
    + intros c Hc Hn. apply Ho; auto. rewrite in_interior. exact Hn.
Qed.

Lemma vector_loop ov (g : grid T) (gr : array (mat3 T)) (val : cell -> axis -> axis -> T) body :
  okgrid ov g -> shaped g gr ->
  (forall s c r d x, interior_cell (g_n g) c -> used (g_dim g) r = true -> used (g_dim g) d = true -> shaped g s -> peek g s c = Ok x ->
     body s c (r, d) = Ok (poke g s c (mset x r d (val c r d)))) ->
  exists gr', forM (interior (g_n g)) (fun gr c => forM (list_prod (axes (g_dim g)) (axes (g_dim g))) (fun gr a => body gr c a) gr) gr = Ok gr' /\
    shaped g gr' /\ a_pad gr' = a_pad gr /\
    (forall c, interior_cell (g_n g) c -> exists x y, peek g gr c = Ok x /\ peek g gr' c = Ok y /\
       forall r d, mget y r d = if used (g_dim g) r && used (g_dim g) d then val c r d else mget x r d) /\
    (forall c, gcell g c -> ~ interior_cell (g_n g) c -> peek g gr' c = peek g gr c).
Proof.
  intros Hg Hs Hb. pose proof (proj1 (proj1 Hg)) as Hd.
  assert (HU : forall c, In c (interior (g_n g)) -> gcell g c).
  { intros c Hc. apply in_interior in Hc. eapply interior_padded; [apply Hg|exact Hc]. }
  destruct (loop_cells ov g (fun c x => fold_left (fun x rc => mset x (fst rc) (snd rc) (val c (fst rc) (snd rc))) (list_prod (axes (g_dim g)) (axes (g_dim g))) x)
     (fun gr c => forM (list_prod (axes (g_dim g)) (axes (g_dim g))) (fun gr a => body gr c a) gr) (interior (g_n g)) gr) as (gr' & E & S' & P' & Hi & Ho); auto.
  - apply interior_nodup.
  - intros s c x Ss _ Hc Hx.
    apply (forM_fold_cell ov g (fun rc x => mset x (fst rc) (snd rc) (val c (fst rc) (snd rc))) (fun s a => body s c a) c); auto.
    + intros s' [r d] x' Ha Ss' Hx'. apply in_prod_iff in Ha. destruct Ha as (Hr & Hd'). cbn [fst snd].
      apply Hb; auto; [apply in_interior; exact Hc|apply in_axes; auto|apply in_axes; auto].
    + pose proof (axes_nonempty (g_dim g)). destruct (axes (g_dim g)); [congruence|discriminate].
  - exists gr'. split; [exact E|]. split; [exact S'|]. split; [exact P'|]. split.
    + intros c Hc. apply in_interior in Hc. destruct (peek_ok ov g gr c Hg Hs (HU c Hc)) as (x & Ex).
      exists x. eexists. split; [exact Ex|]. split; [apply (Hi c x Hc Ex)|]. intros r d. apply fold_mset; auto.
    + intros c Hc Hn. apply Ho; auto. rewrite in_interior. exact Hn.
Qed.

Definition pk {A} (d : A) (g : grid T) (al : array A) (c : cell) : A := match peek g al c with Ok x => x | _ => d end.
Lemma pk_ok {A} (d : A) ov g al c : okgrid ov g -> shaped g al -> gcell g c -> peek g al c = Ok (pk d g al c).
Proof. intros Hg Hs Hc. unfold pk. destruct (peek_ok ov g al c Hg Hs Hc) as (x & ->). reflexivity. Qed.

Section Four.
Variables (ov : ovmode) (g : grid T).
Hypothesis Hg : okgrid ov g.

Lemma soc_scalar_effect al gr : 1 <= g_pad g -> shaped g al -> shaped g gr ->
  exists gr', soc_scalar ov g al g gr = Ok gr' /\ shaped g gr' /\ a_pad gr' = a_pad gr /\
    (forall c, interior_cell (g_n g) c -> exists x y, peek g gr c = Ok x /\ peek g gr' c = Ok y /\
       forall a, vget y a = if used (g_dim g) a
         then soc_formula (pk (nofZ 0) g al (cshift c a 1)) (pk (nofZ 0) g al (cshift c a (-1))) (vget (g_dx g) a) else vget x a) /\
    (forall c, gcell g c -> ~ interior_cell (g_n g) c -> peek g gr' c = peek g gr c).
Proof.
  intros Hp Ha Hr. unfold soc_scalar. replace (array_cells al) with (g_n g) by (symmetry; apply Ha).
  apply (scalar_loop ov g gr (fun c a => soc_formula (pk (nofZ 0) g al (cshift c a 1)) (pk (nofZ 0) g al (cshift c a (-1))) (vget (g_dx g) a))
    (soc_cell ov g al g) Hg Hr).
  intros s [[i j] k] a x Hi Hu Hs Hx. unfold soc_cell.
  destruct (ashift_ok ov g al i j k a 1 Hg Hi Hu) as (C1 & E1); [lia|].
  destruct (ashift_ok ov g al i j k a (-1) Hg Hi Hu) as (C2 & E2); [lia|].
  pose proof (interior_padded _ _ (g_pad g) _ (proj1 Hg) Hi) as Hc.
  rewrite E1, (pk_ok (nofZ 0) ov g al _ Hg Ha C1). cbn [bind]. rewrite E2, (pk_ok (nofZ 0) ov g al _ Hg Ha C2). cbn [bind].
  rewrite (aget_peek_c ov) by auto. rewrite Hx. cbn [bind]. apply aset_poke; auto.
Qed.

Lemma third_scalar_effect al gr : 2 <= g_pad g -> shaped g al -> shaped g gr ->
  exists gr', third_scalar ov g al g gr = Ok gr' /\ shaped g gr' /\ a_pad gr' = a_pad gr /\
    (forall c, interior_cell (g_n g) c -> exists x y, peek g gr c = Ok x /\ peek g gr' c = Ok y /\
       forall a, vget y a = if used (g_dim g) a
         then third_formula (pk (nofZ 0) g al (cshift c a 1)) (pk (nofZ 0) g al c) (pk (nofZ 0) g al (cshift c a (-1)))
                (pk (nofZ 0) g al (cshift c a (-2))) (vget (g_dx g) a) else vget x a) /\
    (forall c, gcell g c -> ~ interior_cell (g_n g) c -> peek g gr' c = peek g gr c).
Proof.
  intros Hp Ha Hr. unfold third_scalar. replace (array_cells al) with (g_n g) by (symmetry; apply Ha).
  apply (scalar_loop ov g gr (fun c a => third_formula (pk (nofZ 0) g al (cshift c a 1)) (pk (nofZ 0) g al c) (pk (nofZ 0) g al (cshift c a (-1)))
                (pk (nofZ 0) g al (cshift c a (-2))) (vget (g_dx g) a))
    (third_cell ov g al g) Hg Hr).
  intros s [[i j] k] a x Hi Hu Hs Hx. unfold third_cell.
  destruct (ashift_ok ov g al i j k a 1 Hg Hi Hu) as (C1 & E1); [lia|].
  destruct (ashift_ok ov g al i j k a (-1) Hg Hi Hu) as (C2 & E2); [lia|].
  destruct (ashift_ok ov g al i j k a (-2) Hg Hi Hu) as (C3 & E3); [lia|].
  pose proof (interior_padded _ _ (g_pad g) _ (proj1 Hg) Hi) as Hc.
  rewrite E1, (pk_ok (nofZ 0) ov g al _ Hg Ha C1). cbn [bind].
  rewrite (aget_peek_c ov g al) by auto. rewrite (pk_ok (nofZ 0) ov g al _ Hg Ha Hc). cbn [bind].
  rewrite E2, (pk_ok (nofZ 0) ov g al _ Hg Ha C2). cbn [bind].
  rewrite E3, (pk_ok (nofZ 0) ov g al _ Hg Ha C3). cbn [bind].
  rewrite (aget_peek_c ov) by auto. rewrite Hx. cbn [bind]. apply aset_poke; auto.
Qed.

Lemma soc_vector_effect al gr : 1 <= g_pad g -> shaped g al -> shaped g gr ->
  exists gr', soc_vector ov g al g gr = Ok gr' /\ shaped g gr' /\ a_pad gr' = a_pad gr /\
    (forall c, interior_cell (g_n g) c -> exists x y, peek g gr c = Ok x /\ peek g gr' c = Ok y /\
       forall r d, mget y r d = if used (g_dim g) r && used (g_dim g) d
         then soc_formula (vget (pk vzero g al (cshift c r 1)) r) (vget (pk vzero g al (cshift c r (-1))) r) (vget (g_dx g) d) else mget x r d) /\
    (forall c, gcell g c -> ~ interior_cell (g_n g) c -> peek g gr' c = peek g gr c).
Proof.
  intros Hp Ha Hr. unfold soc_vector. replace (array_cells al) with (g_n g) by (symmetry; apply Ha).
  apply (vector_loop ov g gr (fun c r d => soc_formula (vget (pk vzero g al (cshift c r 1)) r) (vget (pk vzero g al (cshift c r (-1))) r) (vget (g_dx g) d))
    (soc_vcell ov g al g) Hg Hr).
  intros s [[i j] k] a d x Hi Hu Hu' Hs Hx. unfold soc_vcell.
  destruct (ashift_ok ov g al i j k a 1 Hg Hi Hu) as (C1 & E1); [lia|].
  destruct (ashift_ok ov g al i j k a (-1) Hg Hi Hu) as (C2 & E2); [lia|].
  pose proof (interior_padded _ _ (g_pad g) _ (proj1 Hg) Hi) as Hc.
  rewrite E1, (pk_ok vzero ov g al _ Hg Ha C1). cbn [bind]. rewrite E2, (pk_ok vzero ov g al _ Hg Ha C2). cbn [bind].
  rewrite (aget_peek_c ov) by auto. rewrite Hx. cbn [bind]. apply aset_poke; auto.
Qed.

Lemma third_vector_effect al gr : 2 <= g_pad g -> shaped g al -> shaped g gr ->
  exists gr', third_vector ov g al g gr = Ok gr' /\ shaped g gr' /\ a_pad gr' = a_pad gr /\
    (forall c, interior_cell (g_n g) c -> exists x y, peek g gr c = Ok x /\ peek g gr' c = Ok y /\
       forall r d, mget y r d = if used (g_dim g) r && used (g_dim g) d
         then third_formula (vget (pk vzero g al (cshift c r 1)) r) (vget (pk vzero g al c) r) (vget (pk vzero g al (cshift c r (-1))) r)
                (vget (pk vzero g al (cshift c r (-2))) r) (vget (g_dx g) d) else mget x r d) /\
    (forall c, gcell g c -> ~ interior_cell (g_n g) c -> peek g gr' c = peek g gr c).
Proof.
  intros Hp Ha Hr. unfold third_vector. replace (array_cells al) with (g_n g) by (symmetry; apply Ha).
  apply (vector_loop ov g gr (fun c r d => third_formula (vget (pk vzero g al (cshift c r 1)) r) (vget (pk vzero g al c) r) (vget (pk vzero g al (cshift c r (-1))) r)
                (vget (pk vzero g al (cshift c r (-2))) r) (vget (g_dx g) d))
    (third_vcell ov g al g) Hg Hr).
  intros s [[i j] k] a d x Hi Hu Hu' Hs Hx. unfold third_vcell.
  destruct (ashift_ok ov g al i j k a 1 Hg Hi Hu) as (C1 & E1); [lia|].
  destruct (ashift_ok ov g al i j k a (-1) Hg Hi Hu) as (C2 & E2); [lia|].
  destruct (ashift_ok ov g al i j k a (-2) Hg Hi Hu) as (C3 & E3); [lia|].
  pose proof (interior_padded _ _ (g_pad g) _ (proj1 Hg) Hi) as Hc.
  rewrite E1, (pk_ok vzero ov g al _ Hg Ha C1). cbn [bind].
  rewrite (aget_peek_c ov g al) by auto. rewrite (pk_ok vzero ov g al _ Hg Ha Hc). cbn [bind].
  rewrite E2, (pk_ok vzero ov g al _ Hg Ha C2). cbn [bind].
  rewrite E3, (pk_ok vzero ov g al _ Hg Ha C3). cbn [bind].
  rewrite (aget_peek_c ov) by auto. rewrite Hx. cbn [bind]. apply aset_poke; auto.
Qed.
End Four.
End Effect.
