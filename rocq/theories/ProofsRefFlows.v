(** Steps of the reference programs in particular velocities. *)
From Coq Require Import ZArith List Permutation Bool Lia String Reals Lra.
From Coquelicot Require Import Derive_2d Derive.
From Verif Require Import Base Num NumB64 ModelVec ModelRefMath ModelRefMem ModelRef SpecInterp SpecRef SpecRefPar SpecRefRun ProofsBase ProofsGridProps ProofsRefHermite ProofsRefMath ProofsRefTrace
  ProofsRefMem ProofsRefPar ProofsRefRun ProofsRefUpd ProofsRefMix ProofsRefSearch ProofsRefStep ProofsRefMain ProofsRefReal ProofsRefExact.
Open Scope R_scope.

Lemma tri_eq {A B C} (a a' : A) (b b' : B) (c c' : C) : a = a' -> b = b' -> c = c' -> (a, b, c) = (a', b', c').
Proof. congruence. Qed.

Lemma flat_of_true F Tp u v : velocity_is F Tp (fun _ _ _ => u) (fun _ _ _ => v) -> true_gradients F Tp -> flat_gradients F Tp.
Proof.
  intros V G x y s. destruct (G x y s) as [G1 G2].
  assert (E : forall (f : R -> R -> R) k a b, (forall x y, f x y = k) -> differentiable_pt_lim f x y a b -> a = 0 /\ b = 0).
  { intros f k a b Hf Hd. apply differentiable_pt_lim_unique in Hd as [<- <-].
    split; rewrite (Derive_ext _ (fun _ => k)) by (intros; apply Hf); apply Derive_const. }
  destruct (E _ u _ _ (fun x y => proj1 (V x y s)) G1) as [-> ->]. destruct (E _ v _ _ (fun x y => proj2 (V x y s)) G2) as [-> ->]. auto.
Qed.

Lemma next_plane (F : flow R) s t a b c u v : proper s ->
  velocity_is F (s_Tp s) (fun _ _ _ => u) (fun _ _ _ => v) -> flat_gradients F (s_Tp s) ->
  agree (s_nx s) (s_ny s) (next true F s (node_x s) (node_y s) t (plane (node_x s) (node_y s) a b c))
    (plane (node_x s) (node_y s) (a - b * (u * s_dt s) - c * (v * s_dt s)) b c).
Proof.
  intros P V G. pose proof (dx_pos s P) as Dx. pose proof (dy_pos s P) as Dy.
  assert (E : forall i j, (0 <= i < s_ny s)%Z -> (0 <= j < s_nx s)%Z ->
    new_node true F s (node_x s) (node_y s) t (plane (node_x s) (node_y s) a b c) i j =
    (a - b * (u * s_dt s) - c * (v * s_dt s) + b * node_x s j + c * node_y s i, b, c)).
  { intros i j Hi Hj. unfold new_node. cbv zeta.
    destruct (where_cases true F s t i j P) as [W K]. cbv zeta in W, K.
    pose proof (where_bounds true F s (node_x s) (node_y s) t i j ltac:(destruct P; lia) ltac:(destruct P as (_ & ? & _); lia) (sorted_x s P) (sorted_y s P)) as B. cbv zeta in B.
    assert (Ef : foot true F s (node_x s) (node_y s) t i j = (node_x s j - u * s_dt s, node_y s i - v * s_dt s)).
    { unfold foot. cbn [orb]. apply (trace_constant F (s_Tp s) u v); assumption. }
    rewrite Ef. destruct (where_ true F s (node_x s) (node_y s) t i j) as [w [cx cy]]. cbn [fst snd] in *. clear K.
    rewrite diff_x, diff_y. unfold quad_at, plane. cbn [SpecRefRun.f_phi f_x f_y f_xy].
    unfold node_x, node_y. rewrite !even_succ. fold (node_x s) (node_y s).
    pose proof (fun X Y => hp_plane a b c X Y (node_x s cx) (node_y s cy) (s_dx s) (s_dy s) (Rgt_not_eq _ _ Dx) (Rgt_not_eq _ _ Dy)) as Hp. cbv zeta in Hp.
    assert (Vx : forall X Y S, Velx F X Y S (s_Tp s) = u) by (intros; apply V). assert (Vy : forall X Y S, Vely F X Y S (s_Tp s) = v) by (intros; apply V).
    assert (G1 : forall X Y S, gradUx F X Y S (s_Tp s) = 0) by (intros; apply G). assert (G2 : forall X Y S, gradUy F X Y S (s_Tp s) = 0) by (intros; apply G).
    assert (G3 : forall X Y S, gradVx F X Y S (s_Tp s) = 0) by (intros; apply G). assert (G4 : forall X Y S, gradVy F X Y S (s_Tp s) = 0) by (intros; apply G).
    change (even_nodes (s_xlim1 s) (s_dx s)) with (node_x s). change (even_nodes (s_ylim1 s) (s_dy s)) with (node_y s).
    unfold updated. cbv zeta.
    destruct W as [[-> _]|[[-> _]|[[-> _]|[-> _]]]].
    - rewrite !(proj1 (Hp _ _)), !(proj1 (proj2 (Hp _ _))), !(proj2 (proj2 (Hp _ _))).
      assert (H1 : Heuns_internal F (node_x s j) (node_y s i) (node_x s j - u * s_dt s) (node_y s i - v * s_dt s) b c t (s_dt s) (s_Tp s) = (b, c)).
      { unfold Heuns_internal. cbv zeta. rewrite !G1, !G2, !G3, !G4. nr. f_equal; field. }
      assert (H2 : SuperConsistentScheme F (s_rk3 s) (node_x s j) (node_y s i) b c t (s_dt s) (s_Tp s) = (b, c)).
      { unfold SuperConsistentScheme. cbv zeta. rewrite !G1, !G2, !G3, !G4. destruct (s_rk3 s); nr; f_equal; field. }
      rewrite H1, H2.
      destruct (String.eqb "Heuns" (s_psischeme s)); [|destruct (String.eqb "SuperConsistent" (s_psischeme s))]; cbn [fst snd]; apply tri_eq; ring.
    - rewrite !(proj1 (Hp _ _)), !(proj1 (proj2 (Hp _ _))), !Vy. unfold Heuns_X. cbv zeta. rewrite !G1, !G3, !Vy. nr. apply tri_eq; field.
    - rewrite !(proj1 (Hp _ _)), !(proj2 (proj2 (Hp _ _))), !Vx. unfold Heuns_Y. cbv zeta. rewrite !G2, !G4, !Vx. nr. apply tri_eq; field.
    - rewrite !Vx, !Vy. nr. apply tri_eq; ring. }
  intros i j Hi Hj. unfold next. cbv zeta. cbn [SpecRefRun.f_phi f_x f_y f_xy plane]. rewrite (E i j Hi Hj). cbn [fst snd].
  split; [reflexivity|]. split; [reflexivity|]. split; [reflexivity|].
  destruct P as (N1 & N2 & _).
  rewrite (mixed_agree _ _ _ _ _ (fun _ _ => b) _ (fun _ _ => c)); try lia; [|intros; rewrite E by assumption; reflexivity|intros; rewrite E by assumption; reflexivity].
  unfold mixed_val, sx, sy, comb. cbv zeta. nr.
  repeat match goal with |- context [if ?e then _ else _] => destruct e end; field; repeat split; apply Rgt_not_eq; assumption.
Qed.
Lemma after_plane (F : flow R) s a b c u v k : proper s ->
  velocity_is F (s_Tp s) (fun _ _ _ => u) (fun _ _ _ => v) -> flat_gradients F (s_Tp s) ->
  agree (s_nx s) (s_ny s) (after true F s (node_x s) (node_y s) k (plane (node_x s) (node_y s) a b c))
    (plane (node_x s) (node_y s) (a - b * (u * (INR k * s_dt s)) - c * (v * (INR k * s_dt s))) b c).
Proof.
  intros P V G. induction k as [|k IH].
  - cbn [after INR]. intros i j Hi Hj. unfold plane. cbn [SpecRefRun.f_phi f_x f_y f_xy]. repeat split; ring.
  - cbn [after]. eapply agree_trans; [apply next_agree; [exact P|apply sorted_x; exact P|apply sorted_y; exact P|exact IH]|].
    eapply agree_trans; [apply next_plane with (u := u) (v := v); assumption|].
    rewrite S_INR. intros i j Hi Hj. unfold plane. cbn [SpecRefRun.f_phi f_x f_y f_xy]. repeat split; ring.
Qed.

(** *** nodes where the velocity vanishes *)
Lemma node_in n (x : Z -> R) lo hi j : sorted_nodes n x lo hi -> (0 <= j < n)%Z -> lo <= x j <= hi.
Proof.
  intros (H0 & H1 & H) Hj. split.
  - destruct (Z.eq_dec j 0) as [->|]; [lra|]. rewrite <- H0. apply Rlt_le, H; lia.
  - destruct (Z.eq_dec j (n - 1)) as [->|]; [lra|]. rewrite <- H1. apply Rlt_le, H; lia.
Qed.
Lemma node_corner n (x : Z -> R) lo hi j c : sorted_nodes n x lo hi -> (0 <= j < n)%Z -> cell_around n x lo hi (x j) c -> j = c \/ j = (c + 1)%Z.
Proof.
  intros S Hj (C1 & C2 & C3 & C4). pose proof (node_in n x lo hi j S Hj) as B.
  unfold clamp in *. rewrite Rmin_left in * by lra. rewrite Rmax_right in * by lra. destruct S as (_ & _ & H).
  destruct (Z.lt_ge_cases j c) as [L|L]; [pose proof (H j c ltac:(lia) L ltac:(lia)); lra|].
  destruct (Z.lt_ge_cases (c + 1) j) as [L2|L2]; [pose proof (H (c + 1)%Z j ltac:(lia) L2 ltac:(lia)); lra|]. lia.
Qed.
Lemma node_inside n (x : Z -> R) lo hi j : sorted_nodes n x lo hi -> (0 <= j < n)%Z -> (inside lo hi (x j) <-> (0 < j < n - 1)%Z).
Proof.
  intros (H0 & H1 & H) Hj. unfold inside. split.
  - intros [A B]. destruct (Z.eq_dec j 0) as [->|]; [lra|]. destruct (Z.eq_dec j (n - 1)) as [->|]; [lra|]. lia.
  - intros Hj'. rewrite <- H0, <- H1. split; apply H; lia.
Qed.

(** interpolation at node (i,j) in a cell it is a corner of *)
Lemma hp_node s (f : fields R) i j cx cy : proper s -> j = cx \/ j = (cx + 1)%Z -> i = cy \/ i = (cy + 1)%Z ->
  let P := quad_at (SpecRefRun.f_phi f) cy cx in let Px := quad_at (f_x f) cy cx in let Py := quad_at (f_y f) cy cx in let Pxy := quad_at (f_xy f) cy cx in
  let x := node_x s j in let y := node_y s i in let xo := node_x s cx in let yo := node_y s cy in
  hp P Px Py Pxy x y xo yo (s_dx s) (s_dy s) = SpecRefRun.f_phi f i j /\ hermx P Px Py Pxy x y xo yo (s_dx s) (s_dy s) = f_x f i j /\
  hermy P Px Py Pxy x y xo yo (s_dx s) (s_dy s) = f_y f i j.
Proof.
  intros Pr Hj Hi P Px Py Pxy x y xo yo. pose proof (dx_pos s Pr) as Dx. pose proof (dy_pos s Pr) as Dy.
  assert (Ex : exists u : bool, x = xo + (if u then s_dx s else 0) /\ j = if u then (cx + 1)%Z else cx).
  { subst x xo. destruct Hj as [-> | ->]; [exists false; split; [ring|reflexivity]|exists true; split; [apply even_succ|reflexivity]]. }
  assert (Ey : exists v : bool, y = yo + (if v then s_dy s else 0) /\ i = if v then (cy + 1)%Z else cy).
  { subst y yo. destruct Hi as [-> | ->]; [exists false; split; [ring|reflexivity]|exists true; split; [apply even_succ|reflexivity]]. }
  destruct Ex as (u & Ex & Eu). destruct Ey as (v & Ey & Ev). rewrite Ex, Ey.
  destruct (hp_corner P Px Py Pxy u v xo yo (s_dx s) (s_dy s) (Rgt_not_eq _ _ Dx) (Rgt_not_eq _ _ Dy)) as (A & B & C). cbv zeta in A, B, C.
  rewrite A, B, C, Eu, Ev. unfold P, Px, Py, quad_at. cbn [q0 q1 q2 q3]. destruct u, v; auto.
Qed.

(** the velocity of the node vanishes at all times *)
Definition rests (F : flow R) (Tp x y : R) : Prop := forall s, Velx F x y s Tp = 0 /\ Vely F x y s Tp = 0.
Lemma rest_trace F Tp x y rk3 t dt : rests F Tp x y -> back_trace F rk3 x y t dt Tp = (x, y).
Proof.
  intros H. assert (U : forall s, Velx F x y s Tp = 0) by (intros; apply H). assert (V : forall s, Vely F x y s Tp = 0) by (intros; apply H).
  assert (E : euler_back F x y t dt Tp = (x, y)). { unfold euler_back. rewrite U, V. nr. f_equal; ring. }
  unfold back_trace. cbv zeta. rewrite E. destruct rk3; [|reflexivity]. cbn [fst snd].
  assert (E2 : second_back F x y x y t dt Tp = (x, y)). { unfold second_back. cbv zeta. rewrite !U, !V. nr. f_equal; field. }
  rewrite E2. unfold third_back. cbv zeta. cbn [fst snd]. rewrite !U, !V. nr. f_equal; field.
Qed.

Lemma new_rest whole (F : flow R) s t f i j : proper s -> (0 <= i < s_ny s)%Z -> (0 <= j < s_nx s)%Z ->
  (whole || ((i <? s_ny s - 1)%Z && (j <? s_nx s - 1)%Z))%bool = true ->
  rests F (s_Tp s) (node_x s j) (node_y s i) ->
  let x := node_x s j in let y := node_y s i in let Tp := s_Tp s in
  let xin := (0 < j < s_nx s - 1)%Z in let yin := (0 < i < s_ny s - 1)%Z in
  (xin -> yin -> flat_gradients F Tp) ->
  (xin -> ~ yin -> forall q, gradUx F x y q Tp = 0 /\ gradVx F x y q Tp = 0) ->
  (~ xin -> yin -> forall q, gradUy F x y q Tp = 0 /\ gradVy F x y q Tp = 0) ->
  new_node whole F s (node_x s) (node_y s) t f i j = (SpecRefRun.f_phi f i j, f_x f i j, f_y f i j).
Proof.
  intros P Hi Hj Hw Hr x y Tp xin yin G1 G2 G3. unfold new_node. cbv zeta.
  destruct (where_cases whole F s t i j P) as [W K]. cbv zeta in W, K.
  assert (Ef : foot whole F s (node_x s) (node_y s) t i j = (x, y)). { unfold foot. rewrite Hw. apply rest_trace. exact Hr. }
  rewrite Ef in *. destruct (where_ whole F s (node_x s) (node_y s) t i j) as [w [cx cy]]. cbn [fst snd] in *.
  pose proof (node_inside _ _ _ _ j (sorted_x s P) Hj) as Ix. pose proof (node_inside _ _ _ _ i (sorted_y s P) Hi) as Iy. fold x xin in Ix. fold y yin in Iy.
  assert (Hp : w <> 4%Z -> (j = cx \/ j = cx + 1)%Z /\ (i = cy \/ i = cy + 1)%Z).
  { intros N. destruct (K N) as [K1 K2]. split; [apply (node_corner _ _ _ _ j cx (sorted_x s P) Hj K1)|apply (node_corner _ _ _ _ i cy (sorted_y s P) Hi K2)]. }
  assert (U : forall q, Velx F x y q Tp = 0) by (intros; apply Hr). assert (V : forall q, Vely F x y q Tp = 0) by (intros; apply Hr).
  unfold updated. cbv zeta. rewrite diff_x, diff_y. fold x y Tp.
  destruct W as [(-> & A & B)|[(-> & A & B)|[(-> & A & B)|(-> & A & B)]]].
  - destruct (Hp ltac:(lia)) as [H1 H2]. destruct (hp_node s f i j cx cy P H1 H2) as (E1 & E2 & E3). cbv zeta in E1, E2, E3. fold x y in E1, E2, E3.
    rewrite E1, E2, E3. specialize (G1 ltac:(tauto) ltac:(tauto)).
    assert (Q1 : forall X Y S, gradUx F X Y S Tp = 0) by (intros; apply G1). assert (Q2 : forall X Y S, gradUy F X Y S Tp = 0) by (intros; apply G1).
    assert (Q3 : forall X Y S, gradVx F X Y S Tp = 0) by (intros; apply G1). assert (Q4 : forall X Y S, gradVy F X Y S Tp = 0) by (intros; apply G1).
    destruct (String.eqb "Heuns" (s_psischeme s)); [|destruct (String.eqb "SuperConsistent" (s_psischeme s))]; [| |reflexivity].
    + unfold Heuns_internal. cbv zeta. rewrite !Q1, !Q2, !Q3, !Q4. nr. cbn [fst snd]. apply tri_eq; field.
    + unfold SuperConsistentScheme. cbv zeta. rewrite !Q1, !Q2, !Q3, !Q4. destruct (s_rk3 s); nr; cbn [fst snd]; apply tri_eq; field.
  - destruct (Hp ltac:(lia)) as [H1 H2]. destruct (hp_node s f i j cx cy P H1 H2) as (E1 & E2 & E3). cbv zeta in E1, E2, E3. fold x y in E1, E2, E3.
    rewrite E1, E2, V. specialize (G2 ltac:(tauto) ltac:(tauto)). assert (Q1 : forall q, gradUx F x y q Tp = 0) by (intros; apply G2). assert (Q3 : forall q, gradVx F x y q Tp = 0) by (intros; apply G2).
    unfold Heuns_X. cbv zeta. rewrite !V, !Q1, !Q3. nr. apply tri_eq; field.
  - destruct (Hp ltac:(lia)) as [H1 H2]. destruct (hp_node s f i j cx cy P H1 H2) as (E1 & E2 & E3). cbv zeta in E1, E2, E3. fold x y in E1, E2, E3.
    rewrite E1, E3, U. specialize (G3 ltac:(tauto) ltac:(tauto)). assert (Q2 : forall q, gradUy F x y q Tp = 0) by (intros; apply G3). assert (Q4 : forall q, gradVy F x y q Tp = 0) by (intros; apply G3).
    unfold Heuns_Y. cbv zeta. rewrite !U, !Q2, !Q4. nr. apply tri_eq; field.
  - rewrite U, V. nr. apply tri_eq; ring.
Qed.

(** *** the vortex in the unit square *)
Lemma vortex_wall_x x y Tp q : x = 0 \/ x = 1 -> let F : flow R := vortex in
  Velx F x y q Tp = 0 /\ Vely F x y q Tp = 0 /\ gradUy F x y q Tp = 0 /\ gradVy F x y q Tp = 0.
Proof.
  intros H. cbv zeta. unfold vortex. cbn [Velx Vely gradUy gradVy]. unfold sqr. nr.
  destruct H as [-> | ->]; rewrite ?Rmult_0_r, ?Rmult_1_r, ?sin_0, ?sin_PI, ?sin_2PI; repeat split; ring.
Qed.
Lemma vortex_wall_y x y Tp q : y = 0 \/ y = 1 -> let F : flow R := vortex in
  Velx F x y q Tp = 0 /\ Vely F x y q Tp = 0 /\ gradUx F x y q Tp = 0 /\ gradVx F x y q Tp = 0.
Proof.
  intros H. cbv zeta. unfold vortex. cbn [Velx Vely gradUx gradVx]. unfold sqr. nr.
  destruct H as [-> | ->]; rewrite ?Rmult_0_r, ?Rmult_1_r, ?sin_0, ?sin_PI, ?sin_2PI; repeat split; ring.
Qed.
Lemma wall_rests s i j : proper s -> unit_square s -> (0 <= i < s_ny s)%Z -> (0 <= j < s_nx s)%Z ->
  (i = 0 \/ i = s_ny s - 1 \/ j = 0 \/ j = s_nx s - 1)%Z ->
  let x := node_x s j in let y := node_y s i in
  rests vortex (s_Tp s) x y /\ ((j = 0 \/ j = s_nx s - 1)%Z -> x = 0 \/ x = 1) /\ ((i = 0 \/ i = s_ny s - 1)%Z -> y = 0 \/ y = 1).
Proof.
  intros P (A & B & C & D) Hi Hj Hb x y. destruct (sorted_x s P) as (X0 & X1 & _). destruct (sorted_y s P) as (Y0 & Y1 & _).
  assert (Hx : (j = 0 \/ j = s_nx s - 1)%Z -> x = 0 \/ x = 1) by (intros [-> | ->]; subst x; [left; congruence|right; congruence]).
  assert (Hy : (i = 0 \/ i = s_ny s - 1)%Z -> y = 0 \/ y = 1) by (intros [-> | ->]; subst y; [left; congruence|right; congruence]).
  split; [|auto]. intros q.
  assert (Hc : (j = 0 \/ j = s_nx s - 1)%Z \/ (i = 0 \/ i = s_ny s - 1)%Z) by tauto. destruct Hc as [K|K].
  - destruct (vortex_wall_x x y (s_Tp s) q (Hx K)) as (E1 & E2 & _). auto.
  - destruct (vortex_wall_y x y (s_Tp s) q (Hy K)) as (E1 & E2 & _). auto.
Qed.
Lemma new_wall s t f i j : proper s -> unit_square s -> (0 <= i < s_ny s)%Z -> (0 <= j < s_nx s)%Z ->
  (i = 0 \/ i = s_ny s - 1 \/ j = 0 \/ j = s_nx s - 1)%Z -> forall whole,
  new_node whole vortex s (node_x s) (node_y s) t f i j = (SpecRefRun.f_phi f i j, f_x f i j, f_y f i j).
Proof.
  intros P U Hi Hj Hb whole. destruct (wall_rests s i j P U Hi Hj Hb) as (Hr & Hx & Hy).
  destruct (whole || ((i <? s_ny s - 1)%Z && (j <? s_nx s - 1)%Z))%bool eqn:Ew.
  - apply new_rest; auto.
    + intros; lia.
    + intros A B q. destruct (vortex_wall_y (node_x s j) (node_y s i) (s_Tp s) q) as (_ & _ & E1 & E2); [apply Hy; lia|auto].
    + intros A B q. destruct (vortex_wall_x (node_x s j) (node_y s i) (s_Tp s) q) as (_ & _ & E1 & E2); [apply Hx; lia|auto].
  - unfold new_node. cbv zeta. destruct (where_cases whole vortex s t i j P) as [W _]. cbv zeta in W.
    assert (Ef : foot whole vortex s (node_x s) (node_y s) t i j = (0, 0)) by (unfold foot; rewrite Ew; reflexivity). rewrite Ef in *. cbn [fst snd] in W.
    destruct U as (U1 & U2 & U3 & U4). rewrite U1, U2, U3, U4 in W. unfold inside in W.
    destruct W as [W|[W|[W|W]]]; try (exfalso; lra). destruct W as (-> & _). unfold updated. cbv zeta.
    rewrite (proj1 (Hr _)), (proj2 (Hr _)). nr. apply tri_eq; ring.
Qed.
Lemma next_same s t f : proper s -> unit_square s ->
  agree (s_nx s) (s_ny s) (next false vortex s (node_x s) (node_y s) t f) (next true vortex s (node_x s) (node_y s) t f).
Proof.
  intros P U.
  assert (E : forall i j, (0 <= i < s_ny s)%Z -> (0 <= j < s_nx s)%Z ->
     new_node false vortex s (node_x s) (node_y s) t f i j = new_node true vortex s (node_x s) (node_y s) t f i j).
  { intros i j Hi Hj. destruct ((i <? s_ny s - 1)%Z && (j <? s_nx s - 1)%Z)%bool eqn:Ew.
    - assert (Ef : foot false vortex s (node_x s) (node_y s) t i j = foot true vortex s (node_x s) (node_y s) t i j) by (unfold foot; rewrite Ew; reflexivity).
      unfold new_node, where_. rewrite Ef. reflexivity.
    - rewrite !new_wall by (auto; lia). reflexivity. }
  intros i j Hi Hj. unfold next. cbv zeta. cbn [SpecRefRun.f_phi f_x f_y f_xy]. rewrite (E i j Hi Hj). repeat (split; [reflexivity|]).
  destruct P as (N1 & N2 & _). apply mixed_agree; try lia; intros; rewrite E by assumption; reflexivity.
Qed.
Lemma agree_refl nx ny (f : fields R) : agree nx ny f f.
Proof. intros i j _ _. auto. Qed.
Lemma after_same s k f : proper s -> unit_square s ->
  agree (s_nx s) (s_ny s) (after false vortex s (node_x s) (node_y s) k f) (after true vortex s (node_x s) (node_y s) k f).
Proof.
  intros P U. induction k as [|k IH]; [apply agree_refl|]. cbn [after].
  eapply agree_trans; [apply next_agree; [exact P|apply sorted_x; exact P|apply sorted_y; exact P|exact IH]|]. apply next_same; assumption.
Qed.
Lemma after_wall whole s k f i j : proper s -> unit_square s -> (0 <= i < s_ny s)%Z -> (0 <= j < s_nx s)%Z ->
  (i = 0 \/ i = s_ny s - 1 \/ j = 0 \/ j = s_nx s - 1)%Z ->
  let g := after whole vortex s (node_x s) (node_y s) k f in
  SpecRefRun.f_phi g i j = SpecRefRun.f_phi f i j /\ f_x g i j = f_x f i j /\ f_y g i j = f_y f i j.
Proof.
  intros P U Hi Hj Hb. cbv zeta. induction k as [|k IH]; [auto|]. cbn [after]. unfold next. cbv zeta. cbn [SpecRefRun.f_phi f_x f_y].
  rewrite new_wall by auto. exact IH.
Qed.

(** *** zero velocity *)
Lemma next_rest whole (F : flow R) s t f i j : proper s -> (0 <= i < s_ny s)%Z -> (0 <= j < s_nx s)%Z ->
  (whole || ((i <? s_ny s - 1)%Z && (j <? s_nx s - 1)%Z))%bool = true ->
  velocity_is F (s_Tp s) (fun _ _ _ => 0) (fun _ _ _ => 0) -> flat_gradients F (s_Tp s) ->
  let g := next whole F s (node_x s) (node_y s) t f in
  SpecRefRun.f_phi g i j = SpecRefRun.f_phi f i j /\ f_x g i j = f_x f i j /\ f_y g i j = f_y f i j.
Proof.
  intros P Hi Hj Hw V G. unfold next. cbv zeta. cbn [SpecRefRun.f_phi f_x f_y].
  rewrite new_rest; auto; [intros q; apply V| |]; intros A B q; destruct (G (node_x s j) (node_y s i) q) as (G1 & G2 & G3 & G4); auto.
Qed.

(** *** the nodes advection_point leaves at the origin *)
Lemma origin_found s t (F : flow R) i j : proper s -> s_xlim1 s < 0 < s_xlim2 s -> s_ylim1 s < 0 < s_ylim2 s ->
  (i = s_ny s - 1 \/ j = s_nx s - 1)%Z ->
  foot false F s (node_x s) (node_y s) t i j = (0, 0) /\
  exists c, where_ false F s (node_x s) (node_y s) t i j = (1%Z, c) /\
    where_ false F s (node_x s) (node_y s) t (s_ny s - 1) (s_nx s - 1) = (1%Z, c).
Proof.
  intros P Bx By Hb.
  assert (Ef : forall i j, (i = s_ny s - 1 \/ j = s_nx s - 1)%Z -> foot false F s (node_x s) (node_y s) t i j = (0, 0)).
  { intros i' j' H. unfold foot. replace (false || ((i' <? s_ny s - 1)%Z && (j' <? s_nx s - 1)%Z))%bool with false by lia. reflexivity. }
  split; [apply Ef, Hb|].
  destruct (where_cases false F s t i j P) as [W _]. cbv zeta in W. rewrite (Ef i j Hb) in W. cbn [fst snd] in W. unfold inside in W.
  assert (W1 : fst (where_ false F s (node_x s) (node_y s) t i j) = 1%Z) by (destruct W as [W|[W|[W|W]]]; [tauto|exfalso; lra..]).
  assert (Ew : where_ false F s (node_x s) (node_y s) t (s_ny s - 1) (s_nx s - 1) = where_ false F s (node_x s) (node_y s) t i j).
  { unfold where_. rewrite (Ef i j Hb), (Ef (s_ny s - 1)%Z (s_nx s - 1)%Z) by auto. reflexivity. }
  destruct (where_ false F s (node_x s) (node_y s) t i j) as [w c]. cbn in W1. subst w. exists c. auto.
Qed.
Lemma origin_value (F : flow R) s t f : proper s -> s_xlim1 s < 0 < s_xlim2 s -> s_ylim1 s < 0 < s_ylim2 s ->
  exists v, forall i j, (i = s_ny s - 1 \/ j = s_nx s - 1)%Z -> SpecRefRun.f_phi (next false F s (node_x s) (node_y s) t f) i j = v.
Proof.
  intros P Bx By. destruct (origin_found s t F (s_ny s - 1) (s_nx s - 1) P Bx By (or_introl eq_refl)) as (_ & c & Ec & _).
  eexists. intros i j Hb. destruct (origin_found s t F i j P Bx By Hb) as (Ef & c' & Ec' & Ec2).
  assert (c' = c) as -> by congruence. unfold next, new_node. cbv zeta. cbn [SpecRefRun.f_phi]. rewrite Ef, Ec'. unfold updated. cbv zeta. cbn [SpecRefRun.f_phi fst snd]. reflexivity.
Qed.
Lemma origin_plane (F : flow R) s t a b c i j : proper s -> s_xlim1 s < 0 < s_xlim2 s -> s_ylim1 s < 0 < s_ylim2 s ->
  (i = s_ny s - 1 \/ j = s_nx s - 1)%Z -> SpecRefRun.f_phi (next false F s (node_x s) (node_y s) t (plane (node_x s) (node_y s) a b c)) i j = a.
Proof.
  intros P Bx By Hb. destruct (origin_found s t F i j P Bx By Hb) as (Ef & c' & Ec' & _).
  unfold next, new_node. cbv zeta. cbn [SpecRefRun.f_phi]. rewrite Ef, Ec'. destruct c' as [cx cy]. unfold updated. cbv zeta. cbn [SpecRefRun.f_phi fst snd].
  rewrite diff_x, diff_y. unfold quad_at, plane. cbn [SpecRefRun.f_phi f_x f_y f_xy]. unfold node_x, node_y. rewrite !even_succ. fold (node_x s) (node_y s).
  pose proof (dx_pos s P) as Dx. pose proof (dy_pos s P) as Dy.
  pose proof (hp_plane a b c 0 0 (node_x s cx) (node_y s cy) (s_dx s) (s_dy s) (Rgt_not_eq _ _ Dx) (Rgt_not_eq _ _ Dy)) as [Hp _]. cbv zeta in Hp.
  transitivity (a + b * 0 + c * 0); [|ring]. rewrite <- Hp. reflexivity.
Qed.
