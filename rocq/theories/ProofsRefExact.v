(** What a step of the reference programs computes for particular data and velocities. *)
From Coq Require Import ZArith List Permutation Bool Lia String Reals Lra.
From Verif Require Import Base Num NumB64 ModelVec ModelRefMath ModelRefMem ModelRef SpecInterp SpecRef SpecRefPar SpecRefRun ProofsBase ProofsGridProps ProofsRefHermite ProofsRefMath ProofsRefTrace
  ProofsRefMem ProofsRefPar ProofsRefRun ProofsRefUpd ProofsRefMix ProofsRefSearch ProofsRefStep ProofsRefMain ProofsRefReal.
Open Scope R_scope.

Lemma even_succ (lo d : R) j : even_nodes lo d (j + 1) = even_nodes lo d j + d.
Proof. unfold even_nodes. nr. rewrite plus_IZR. ring. Qed.
Lemma even_pred (lo d : R) j : even_nodes lo d (j - 1) = even_nodes lo d j - d.
Proof. unfold even_nodes. nr. rewrite minus_IZR. ring. Qed.

(** *** mixed derivatives *)
Lemma mixed_exact nx ny x0 y0 dx dy a b c (p q : R -> R) k l :
  (2 <= nx)%Z -> (2 <= ny)%Z -> (0 <= k < ny)%Z -> (0 <= l < nx)%Z -> dx <> 0 -> dy <> 0 ->
  let X := even_nodes x0 dx in let Y := even_nodes y0 dy in
  let px k l := p (X l) + a * Y k + 2 * b * X l * Y k + c * Y k ^ 2 in
  let py k l := q (Y k) + a * X l + b * X l ^ 2 + 2 * c * X l * Y k in
  mixed_val nx ny dx dy px py k l = a + 2 * b * X l + 2 * c * Y k.
Proof.
  intros N1 N2 Hk Hl Dx Dy X Y px py. unfold mixed_val, sx, sy, comb. cbv zeta.
  assert (Xs : forall j, X (j + 1)%Z = X j + dx) by (intros; apply even_succ). assert (Xp : forall j, X (j - 1)%Z = X j - dx) by (intros; apply even_pred).
  assert (Ys : forall j, Y (j + 1)%Z = Y j + dy) by (intros; apply even_succ). assert (Yp : forall j, Y (j - 1)%Z = Y j - dy) by (intros; apply even_pred).
  assert (X1 : X 1%Z = X 0%Z + dx) by (rewrite <- Xs; reflexivity). assert (Y1 : Y 1%Z = Y 0%Z + dy) by (rewrite <- Ys; reflexivity).
  assert (X2 : X (nx - 2)%Z = X (nx - 1)%Z - dx) by (rewrite <- Xp; f_equal; lia). assert (Y2 : Y (ny - 2)%Z = Y (ny - 1)%Z - dy) by (rewrite <- Yp; f_equal; lia).
  subst px py. cbv beta. clearbody X Y.
  destruct (Z.eqb_spec k 0); destruct (Z.eqb_spec k (ny - 1)); destruct (Z.eqb_spec l 0); destruct (Z.eqb_spec l (nx - 1));
    cbn [orb andb negb]; try lia; subst; rewrite ?Xs, ?Ys, ?Xp, ?Yp, ?X1, ?Y1, ?X2, ?Y2, ?Xp, ?Yp; nr; field; auto.
Qed.

(** *** the interpolant at the corners of a cell *)
Lemma hp_corner (P Px Py Pxy : quad R) (u v : bool) xo yo dx dy : dx <> 0 -> dy <> 0 ->
  let s (b : bool) h := if b then h else 0 in let sel (Q : quad R) := match u, v with false, false => q0 Q | true, false => q1 Q | false, true => q2 Q | true, true => q3 Q end in
  let x := xo + s u dx in let y := yo + s v dy in
  hp P Px Py Pxy x y xo yo dx dy = sel P /\ hermx P Px Py Pxy x y xo yo dx dy = sel Px /\ hermy P Px Py Pxy x y xo yo dx dy = sel Py.
Proof.
  intros Dx Dy s sel x y. subst s sel x y. cbv beta.
  unfold hp, hermx, hermy, hsum, rounds, corners, basepolynomial, gradbpx, gradbpy. cbn [fold_left]. cbv zeta.
  destruct P as [p0 p1 p2 p3], Px as [a0 a1 a2 a3], Py as [b0 b1 b2 b3], Pxy as [c0 c1 c2 c3]. cbn [q0 q1 q2 q3].
  assert (E : forall (b : bool) z h, h <> 0 -> (z + (if b then h else 0) - z) / h = if b then 1 else 0) by (intros []; intros; field; auto).
  nr. rewrite !E by assumption. unfold bp1, gradbp1, sqr, cube, pow01. nr. destruct u, v; repeat split; field; auto.
Qed.

(** *** dependence on the data *)
Lemma mixed_agree nx ny dx dy (p p' q q' : Z -> Z -> R) k l : (2 <= nx)%Z -> (2 <= ny)%Z -> (0 <= k < ny)%Z -> (0 <= l < nx)%Z ->
  (forall i j, (0 <= i < ny)%Z -> (0 <= j < nx)%Z -> p i j = p' i j) -> (forall i j, (0 <= i < ny)%Z -> (0 <= j < nx)%Z -> q i j = q' i j) ->
  mixed_val nx ny dx dy p q k l = mixed_val nx ny dx dy p' q' k l.
Proof.
  intros N1 N2 Hk Hl Hp Hq. unfold mixed_val, sx, sy, comb. cbv zeta.
  destruct (Z.eqb_spec k 0); destruct (Z.eqb_spec k (ny - 1)); destruct (Z.eqb_spec l 0); destruct (Z.eqb_spec l (nx - 1));
    cbn [orb andb negb]; try lia; repeat rewrite Hp by lia; repeat rewrite Hq by lia; reflexivity.
Qed.
Lemma next_agree whole (F : flow R) s x y t f g : proper s ->
  sorted_nodes (s_nx s) x (s_xlim1 s) (s_xlim2 s) -> sorted_nodes (s_ny s) y (s_ylim1 s) (s_ylim2 s) ->
  agree (s_nx s) (s_ny s) f g -> agree (s_nx s) (s_ny s) (next whole F s x y t f) (next whole F s x y t g).
Proof.
  intros (N1 & N2 & _) S1 S2 A.
  assert (E : forall i j, (0 <= i < s_ny s)%Z -> (0 <= j < s_nx s)%Z -> new_node whole F s x y t f i j = new_node whole F s x y t g i j).
  { intros i j Hi Hj. unfold new_node. cbv zeta. pose proof (where_bounds whole F s x y t i j ltac:(lia) ltac:(lia) S1 S2) as B. cbv zeta in B.
    destruct (where_ whole F s x y t i j) as [w [cx cy]]. cbn [fst snd] in *. destruct (A i j Hi Hj) as (-> & -> & -> & ->).
    unfold quad_at.
    destruct (A cy cx ltac:(lia) ltac:(lia)) as (-> & -> & -> & ->). destruct (A cy (cx + 1)%Z ltac:(lia) ltac:(lia)) as (-> & -> & -> & ->).
    destruct (A (cy + 1)%Z cx ltac:(lia) ltac:(lia)) as (-> & -> & -> & ->). destruct (A (cy + 1)%Z (cx + 1)%Z ltac:(lia) ltac:(lia)) as (-> & -> & -> & ->).
    reflexivity. }
  intros i j Hi Hj. unfold next. cbv zeta. cbn [SpecRefRun.f_phi f_x f_y f_xy]. rewrite (E i j Hi Hj). split; [reflexivity|]. split; [reflexivity|]. split; [reflexivity|].
  apply mixed_agree; try lia; intros; rewrite E by assumption; reflexivity.
Qed.
Lemma contains_agree nx ny (f g : fields R) m : agree nx ny f g -> contains nx ny f m -> contains nx ny g m.
Proof.
  intros A (C1 & C2 & C3 & C4 & C5 & C6 & C7 & C8). unfold contains.
  repeat split; intros i j Hi Hj; destruct (A i j Hi Hj) as (E1 & E2 & E3 & E4); rewrite <- ?E1, <- ?E2, <- ?E3, <- ?E4; auto.
Qed.
Lemma agree_trans nx ny (f g h : fields R) : agree nx ny f g -> agree nx ny g h -> agree nx ny f h.
Proof.
  intros A B i j Hi Hj. destruct (A i j Hi Hj) as (-> & -> & -> & ->). apply B; assumption.
Qed.

Lemma sorted_x (s : settings R) : proper s -> sorted_nodes (s_nx s) (node_x s) (s_xlim1 s) (s_xlim2 s).
Proof. intros (A & B & C & D). apply even_sorted; [lia|assumption]. Qed.
Lemma sorted_y (s : settings R) : proper s -> sorted_nodes (s_ny s) (node_y s) (s_ylim1 s) (s_ylim2 s).
Proof. intros (A & B & C & D). apply even_sorted; [lia|assumption]. Qed.
Lemma dx_pos s : proper s -> 0 < s_dx s.
Proof.
  intros (A & B & C & D). unfold s_dx. nr. rewrite u32_small by lia. apply Rdiv_lt_0_compat; [lra|apply IZR_lt; lia].
Qed.
Lemma dy_pos s : proper s -> 0 < s_dy s.
Proof.
  intros (A & B & C & D). unfold s_dy. nr. rewrite u32_small by lia. apply Rdiv_lt_0_compat; [lra|apply IZR_lt; lia].
Qed.
Lemma diff_x (s : settings R) : (node_x s 2 - node_x s 1)%num = s_dx s.
Proof. unfold node_x. change 2%Z with (1 + 1)%Z. rewrite even_succ. nr. ring. Qed.
Lemma diff_y (s : settings R) : (node_y s 2 - node_y s 1)%num = s_dy s.
Proof. unfold node_y. change 2%Z with (1 + 1)%Z. rewrite even_succ. nr. ring. Qed.

(** what the search says about a node *)
Lemma where_cases whole (F : flow R) s t i j : proper s ->
  let p := foot whole F s (node_x s) (node_y s) t i j in
  let w := where_ whole F s (node_x s) (node_y s) t i j in
  (fst w = 1%Z /\ inside (s_xlim1 s) (s_xlim2 s) (fst p) /\ inside (s_ylim1 s) (s_ylim2 s) (snd p) \/
   fst w = 2%Z /\ inside (s_xlim1 s) (s_xlim2 s) (fst p) /\ ~ inside (s_ylim1 s) (s_ylim2 s) (snd p) \/
   fst w = 3%Z /\ ~ inside (s_xlim1 s) (s_xlim2 s) (fst p) /\ inside (s_ylim1 s) (s_ylim2 s) (snd p) \/
   fst w = 4%Z /\ ~ inside (s_xlim1 s) (s_xlim2 s) (fst p) /\ ~ inside (s_ylim1 s) (s_ylim2 s) (snd p)) /\
  (fst w <> 4%Z -> cell_around (s_nx s) (node_x s) (s_xlim1 s) (s_xlim2 s) (fst p) (fst (snd w)) /\
     cell_around (s_ny s) (node_y s) (s_ylim1 s) (s_ylim2 s) (snd p) (snd (snd w))).
Proof.
  intros P p w. destruct P as (A & B & C & D) eqn:EP. clear EP. assert (Q : proper s) by (repeat split; lia || assumption).
  pose proof (found_spec (s_nx s) (s_ny s) (node_x s) (node_y s) (s_xlim1 s) (s_xlim2 s) (s_ylim1 s) (s_ylim2 s) (fst p) (snd p) ltac:(lia) ltac:(lia) (sorted_x s Q) (sorted_y s Q)) as H.
  subst w. unfold where_. cbv zeta. fold p. cbv zeta in H.
  destruct (found (s_nx s) (s_ny s) (s_xlim1 s) (s_xlim2 s) (s_ylim1 s) (s_ylim2 s) (map (node_x s) (range 0 (s_nx s))) (map (node_y s) (range 0 (s_ny s))) (fst p) (snd p)) as [tr oc].
  cbn [fst snd] in *. destruct H as (H1 & H2 & H3 & H4 & H5). split.
  - destruct (Rlt_dec (s_xlim1 s) (fst p)); destruct (Rlt_dec (fst p) (s_xlim2 s)); destruct (Rlt_dec (s_ylim1 s) (snd p)); destruct (Rlt_dec (snd p) (s_ylim2 s));
      unfold inside in *; tauto.
  - intros N4. destruct oc as [c|]; [|congruence]. destruct H5 as (_ & K1 & K2). split; assumption.
Qed.

(** *** planes in a constant velocity *)
Lemma hp_plane a b c x y xo yo dx dy : dx <> 0 -> dy <> 0 ->
  let P := mkQuad (a + b * xo + c * yo) (a + b * (xo + dx) + c * yo) (a + b * xo + c * (yo + dy)) (a + b * (xo + dx) + c * (yo + dy)) in
  let Px := mkQuad b b b b in let Py := mkQuad c c c c in let Z0 := mkQuad 0 0 0 0 in
  hp P Px Py Z0 x y xo yo dx dy = a + b * x + c * y /\ hermx P Px Py Z0 x y xo yo dx dy = b /\ hermy P Px Py Z0 x y xo yo dx dy = c.
Proof.
  intros Dx Dy P Px Py Z0. unfold P, Px, Py, Z0, hp, hermx, hermy, hsum, rounds, corners, basepolynomial, gradbpx, gradbpy. cbn [fold_left q0 q1 q2 q3]. cbv zeta.
  unfold bp1, gradbp1, sqr, cube, pow01. nr.
  repeat split; field; auto.
Qed.
