(** The first serial program over the reals, compared with the later ones. *)
From Coq Require Import ZArith List Permutation Bool Lia String Reals Lra.
From Verif Require Import Base Num NumB64 ModelVec ModelRefMath ModelRefMem ModelRef ModelRefOld SpecInterp SpecRef SpecRefPar SpecRefRun SpecRefOld ProofsBase ProofsGridProps ProofsRefHermite ProofsRefMath ProofsRefTrace
  ProofsRefMem ProofsRefPar ProofsRefRun ProofsRefUpd ProofsRefMix ProofsRefSearch ProofsRefStep ProofsRefMain ProofsRefReal ProofsRefExact ProofsRefFlows ProofsRefOld.
Open Scope R_scope.

(** *** neighbouring cells agree on their common edge *)
Definition herm3 (s : settings R) (f : fields R) (r c : Z) (X Y : R) : R * R * R :=
  let P := quad_at (SpecRefRun.f_phi f) r c in let Px := quad_at (f_x f) r c in let Py := quad_at (f_y f) r c in let Pxy := quad_at (f_xy f) r c in
  let xo := node_x s c in let yo := node_y s r in
  (hp P Px Py Pxy X Y xo yo (s_dx s) (s_dy s), hermx P Px Py Pxy X Y xo yo (s_dx s) (s_dy s), hermy P Px Py Pxy X Y xo yo (s_dx s) (s_dy s)).

Lemma edge_x s f r c Y : proper s -> herm3 s f r c (node_x s (c + 1)) Y = herm3 s f r (c + 1) (node_x s (c + 1)) Y.
Proof.
  intros P. pose proof (dx_pos s P) as Dx. pose proof (dy_pos s P) as Dy.
  unfold herm3. cbv zeta. unfold quad_at.
  unfold hp, hermx, hermy, hsum, rounds, corners, basepolynomial, gradbpx, gradbpy. cbn [fold_left q0 q1 q2 q3]. cbv zeta.
  assert (E1 : (node_x s (c + 1) - node_x s c) / s_dx s = 1). { unfold node_x. rewrite even_succ. nr. field. lra. }
  assert (E2 : (node_x s (c + 1) - node_x s (c + 1)) / s_dx s = 0). { nr. field. lra. }
  nr. rewrite E1, E2. generalize ((Y - node_y s r) / s_dy s). intros e.
  unfold bp1, gradbp1, sqr, cube, pow01. nr. apply tri_eq; field; lra.
Qed.
Lemma edge_y s f r c X : proper s -> herm3 s f r c X (node_y s (r + 1)) = herm3 s f (r + 1) c X (node_y s (r + 1)).
Proof.
  intros P. pose proof (dx_pos s P) as Dx. pose proof (dy_pos s P) as Dy.
  unfold herm3. cbv zeta. unfold quad_at.
  unfold hp, hermx, hermy, hsum, rounds, corners, basepolynomial, gradbpx, gradbpy. cbn [fold_left q0 q1 q2 q3]. cbv zeta.
  assert (E1 : (node_y s (r + 1) - node_y s r) / s_dy s = 1). { unfold node_y. rewrite even_succ. nr. field. lra. }
  assert (E2 : (node_y s (r + 1) - node_y s (r + 1)) / s_dy s = 0). { nr. field. lra. }
  nr. rewrite E1, E2. generalize ((X - node_x s c) / s_dx s). intros e.
  unfold bp1, gradbp1, sqr, cube, pow01. nr. apply tri_eq; field; lra.
Qed.

(** two cells that contain the same position on an axis *)
Lemma even_le lo d i j : 0 < d -> even_nodes lo d i <= even_nodes lo d j -> (i <= j)%Z.
Proof.
  intros D H. unfold even_nodes in H. nr. apply le_IZR.
  apply Rmult_le_reg_l with d; [exact D|]. lra.
Qed.
Lemma even_mono lo d i j : 0 < d -> (i <= j)%Z -> even_nodes lo d i <= even_nodes lo d j.
Proof. intros D H. unfold even_nodes. nr. apply IZR_le in H. apply Rplus_le_compat_l, Rmult_le_compat_l; lra. Qed.
Lemma axis_same lo d c c' v : 0 < d -> even_nodes lo d c <= v <= even_nodes lo d (c + 1) -> even_nodes lo d c' <= v <= even_nodes lo d (c' + 1) ->
  c = c' \/ (c' = (c + 1)%Z /\ v = even_nodes lo d (c + 1)) \/ (c = (c' + 1)%Z /\ v = even_nodes lo d (c' + 1)).
Proof.
  intros D A B. assert ((c <= c' + 1)%Z) by (apply (even_le lo d); lra). assert ((c' <= c + 1)%Z) by (apply (even_le lo d); lra).
  destruct (Z.eq_dec c c') as [->|N]; [auto|]. destruct (Z.eq_dec c' (c + 1)) as [->|N1].
  - right; left. split; [reflexivity|]. lra.
  - right; right. assert (E : c = (c' + 1)%Z) by lia. split; [exact E|]. subst c. lra.
Qed.
Definition in_cell (s : settings R) (r c : Z) (X Y : R) : Prop :=
  node_x s c <= X <= node_x s (c + 1) /\ node_y s r <= Y <= node_y s (r + 1).
Lemma cells_same s f r c r' c' X Y : proper s -> in_cell s r c X Y -> in_cell s r' c' X Y -> herm3 s f r c X Y = herm3 s f r' c' X Y.
Proof.
  intros P [A1 A2] [B1 B2]. pose proof (dx_pos s P) as Dx. pose proof (dy_pos s P) as Dy.
  assert (Ex : forall r, herm3 s f r c X Y = herm3 s f r c' X Y).
  { intros q. destruct (axis_same _ _ c c' X Dx A1 B1) as [-> |[(-> & ->)|(-> & ->)]]; [reflexivity| |].
    - apply edge_x. exact P. - symmetry. apply edge_x. exact P. }
  assert (Ey : forall c, herm3 s f r c X Y = herm3 s f r' c X Y).
  { intros q. destruct (axis_same _ _ r r' Y Dy A2 B2) as [-> |[(-> & ->)|(-> & ->)]]; [reflexivity| |].
    - apply edge_y. exact P. - symmetry. apply edge_y. exact P. }
  rewrite Ex. apply Ey.
Qed.

(** *** one axis *)
Lemma axis_in n lo d j v : 0 < d -> (2 <= n)%Z -> (0 <= j < n)%Z -> let x := even_nodes lo d in
  lo <= v <= x (n - 1)%Z -> Rabs (v - x j) <= d -> exists c, (c = j - 1 \/ c = j)%Z /\ (0 <= c < n - 1)%Z /\ x c <= v <= x (c + 1)%Z.
Proof.
  intros D N Hj x V A. assert (A1 : - d <= v - x j <= d) by (clearbody x; unfold Rabs in A; destruct (Rcase_abs (v - x j)); lra).
  assert (X0 : x 0%Z = lo) by (unfold x, even_nodes; nr; ring).
  destruct (Rle_lt_dec (x j) v) as [L|L].
  - destruct (Z.eq_dec j (n - 1)) as [->|Nj].
    + exists (n - 1 - 1)%Z. split; [auto|]. split; [lia|]. replace (n - 1 - 1 + 1)%Z with (n - 1)%Z by lia. unfold x at 1. rewrite even_pred. fold x. lra.
    + exists j. split; [auto|]. split; [lia|]. unfold x at 2. rewrite even_succ. fold x. lra.
  - exists (j - 1)%Z. split; [auto|]. assert (j <> 0)%Z by (intros ->; lra). split; [lia|]. replace (j - 1 + 1)%Z with j by lia. unfold x at 1. rewrite even_pred. fold x. lra.
Qed.
Lemma axis_out n lo d j v : 0 < d -> (0 <= j < n)%Z -> let x := even_nodes lo d in
  ~ (lo <= v <= x (n - 1)%Z) -> Rabs (v - x j) <= d -> (j = 0%Z /\ v < lo) \/ (j = (n - 1)%Z /\ x (n - 1)%Z < v).
Proof.
  intros D Hj x V A. assert (A1 : - d <= v - x j <= d) by (clearbody x; unfold Rabs in A; destruct (Rcase_abs (v - x j)); lra). assert (X0 : x 0%Z = lo) by (unfold x, even_nodes; nr; ring).
  destruct (Rlt_le_dec v lo) as [L|L].
  - left. split; [|exact L]. destruct (Z.eq_dec j 0); [assumption|]. exfalso. pose proof (even_mono lo d 0 (j - 1) D ltac:(lia)) as M.
    rewrite even_pred in M. fold x in M. lra.
  - right. assert (Hv : x (n - 1)%Z < v) by lra. split; [|exact Hv]. destruct (Z.eq_dec j (n - 1)); [assumption|]. exfalso.
    pose proof (even_mono lo d (j + 1) (n - 1) D ltac:(lia)) as M. rewrite even_succ in M. fold x in M. lra.
Qed.

Lemma touch_in nx ny i j r c : In (r, c) (touching nx ny i j) <->
  ((r = i - 1 \/ r = i) /\ (c = j - 1 \/ c = j) /\ 0 <= r < ny - 1 /\ 0 <= c < nx - 1)%Z.
Proof.
  unfold touching. rewrite filter_In. cbn [In fst snd]. split.
  - intros [H B]. apply andb_true_iff in B as [B B4]. apply andb_true_iff in B as [B B3]. apply andb_true_iff in B as [B1 B2].
    apply Z.leb_le in B1, B3. apply Z.ltb_lt in B2, B4.
    destruct H as [H|[H|[H|[H|[]]]]]; injection H as <- <-; lia.
  - intros (H1 & H2 & H3 & H4). split.
    + destruct H1 as [-> | ->], H2 as [-> | ->]; auto.
    + rewrite !andb_true_iff, !Z.leb_le, !Z.ltb_lt. lia.
Qed.
Lemma between_spec lo hi v : @between R _ lo hi v = true <-> lo <= v <= hi.
Proof.
  unfold between. change (lo <=? v)%num with (Rleb lo v). change (v <=? hi)%num with (Rleb v hi).
  destruct (Rleb_spec lo v); destruct (Rleb_spec v hi); cbn; split; intros; try discriminate; try reflexivity; lra.
Qed.
Lemma between_not lo hi v : @between R _ lo hi v = false <-> ~ (lo <= v <= hi).
Proof. rewrite <- not_true_iff_false, between_spec. reflexivity. Qed.
Lemma beyond_spec lo hi v : @beyond R _ lo hi v = true <-> v < lo \/ hi < v.
Proof.
  unfold beyond. change (v <? lo)%num with (Rltb v lo). change (hi <? v)%num with (Rltb hi v).
  destruct (Rltb_spec v lo); destruct (Rltb_spec hi v); cbn; split; intros; try discriminate; try reflexivity; auto; lra.
Qed.
Lemma beyond_not lo hi v : @beyond R _ lo hi v = false <-> lo <= v <= hi.
Proof. rewrite <- not_true_iff_false, beyond_spec. lra. Qed.
Lemma first_none use l : first_use use l = None -> forall c, In c l -> use c = 0%Z.
Proof.
  induction l as [|a l IH]; cbn; [intros _ c []|]. destruct (Z.eqb_spec (use a) 0); [|discriminate].
  intros H c [<-|Hc]; auto.
Qed.
Lemma corner_spec nx ny i j : grid_corner nx ny i j = true <-> ((i = 0 \/ i = ny - 1) /\ (j = 0 \/ j = nx - 1))%Z.
Proof. unfold grid_corner. rewrite andb_true_iff, !orb_true_iff, !Z.eqb_eq. reflexivity. Qed.

Lemma limits_x s : proper s -> node_x s 0 = s_xlim1 s /\ node_x s (s_nx s - 1) = s_xlim2 s.
Proof. intros P. destruct (sorted_x s P) as (A & B & _). auto. Qed.
Lemma limits_y s : proper s -> node_y s 0 = s_ylim1 s /\ node_y s (s_ny s - 1) = s_ylim2 s.
Proof. intros P. destruct (sorted_y s P) as (A & B & _). auto. Qed.

(** the position is near the node on one axis: the cells around it in the list of the old program *)
Definition axis_case (n : Z) (x : Z -> R) (lo hi : R) (j : Z) (v : R) (ins : bool) : Prop :=
  if ins then lo <= v <= hi /\ exists c, (c = j - 1 \/ c = j)%Z /\ (0 <= c < n - 1)%Z /\ x c <= v <= x (c + 1)%Z
  else (v < lo \/ hi < v) /\ (j = 0%Z /\ v < lo \/ j = (n - 1)%Z /\ hi < v) /\ forall c, (0 <= c < n - 1)%Z -> ~ (x c <= v <= x (c + 1)%Z).
Lemma axis_cases n lo d hi j v : 0 < d -> (2 <= n)%Z -> (0 <= j < n)%Z -> even_nodes lo d (n - 1) = hi -> Rabs (v - even_nodes lo d j) <= d ->
  exists ins, axis_case n (even_nodes lo d) lo hi j v ins.
Proof.
  intros D N Hj Eh A. subst hi. pose proof (even_mono lo d 0 (n - 1) D ltac:(lia)) as M0. replace (even_nodes lo d 0) with lo in M0 by (unfold even_nodes; nr; ring).
  destruct (Rle_dec lo v) as [L1|L1]; [destruct (Rle_dec v (even_nodes lo d (n - 1))) as [L2|L2]|].
  - exists true. split; [split; assumption|]. destruct (axis_in n lo d j v D N Hj (conj L1 L2) A) as (c & H). exists c. exact H.
  - exists false. assert (NI : ~ (lo <= v <= even_nodes lo d (n - 1))) by lra. split; [lra|]. split; [apply axis_out; assumption|].
    intros c Hc [_ B]. pose proof (even_mono lo d (c + 1) (n - 1) D ltac:(lia)). lra.
  - exists false. assert (NI : ~ (lo <= v <= even_nodes lo d (n - 1))) by lra. split; [lra|]. split; [apply axis_out; assumption|].
    intros c Hc [B _]. pose proof (even_mono lo d 0 c D ltac:(lia)) as M. replace (even_nodes lo d 0) with lo in M by (unfold even_nodes; nr; ring). lra.
Qed.

Definition kind (xin yin : bool) : Z := match xin, yin with true, true => 1 | true, false => 2 | false, true => 3 | false, false => 4 end%Z.
Lemma only_cell n j c c' : ((j = 0 \/ j = n - 1) -> 0 <= c < n - 1 -> 0 <= c' < n - 1 -> (c = j - 1 \/ c = j) -> (c' = j - 1 \/ c' = j) -> c = c')%Z.
Proof. lia. Qed.
Lemma use_kind s i j xa ya xin yin : proper s -> (0 <= i < s_ny s)%Z -> (0 <= j < s_nx s)%Z ->
  axis_case (s_nx s) (node_x s) (s_xlim1 s) (s_xlim2 s) j xa xin -> axis_case (s_ny s) (node_y s) (s_ylim1 s) (s_ylim2 s) i ya yin ->
  exists r c, first_use (cell_use s (node_x s) (node_y s) xa ya i j) (touching (s_nx s) (s_ny s) i j) = Some (kind xin yin, (r, c)) /\
    In (r, c) (touching (s_nx s) (s_ny s) i j) /\
    (xin = true -> node_x s c <= xa <= node_x s (c + 1)) /\ (yin = true -> node_y s r <= ya <= node_y s (r + 1)).
Proof.
  intros P Hi Hj Ax Ay.
  assert (U : forall r c, In (r, c) (touching (s_nx s) (s_ny s) i j) -> let u := cell_use s (node_x s) (node_y s) xa ya i j (r, c) in
    u <> 0%Z -> u = kind xin yin /\ (xin = true -> node_x s c <= xa <= node_x s (c + 1)) /\ (yin = true -> node_y s r <= ya <= node_y s (r + 1))).
  { intros r c Hin u. subst u. apply touch_in in Hin as (H1 & H2 & H3 & H4). unfold cell_use. cbv zeta. cbn [fst snd].
    destruct (between (node_x s c) _ _) eqn:Bx; [apply between_spec in Bx|apply between_not in Bx];
    (destruct (between (node_y s r) _ _) eqn:By; [apply between_spec in By|apply between_not in By]).
    - intros _. destruct xin; [|destruct Ax as (_ & _ & Ax); specialize (Ax c H4); tauto].
      destruct yin; [|destruct Ay as (_ & _ & Ay); specialize (Ay r H3); tauto]. cbn [kind]. auto.
    - destruct (beyond (s_ylim1 s) (s_ylim2 s) ya) eqn:B; [|congruence]. intros _. apply beyond_spec in B.
      destruct xin; [|destruct Ax as (_ & _ & Ax); specialize (Ax c H4); tauto].
      destruct yin; [destruct Ay as ((? & ?) & _); lra|]. cbn [kind]. split; [auto|]. split; [auto|discriminate].
    - destruct (beyond (s_xlim1 s) (s_xlim2 s) xa) eqn:B; [|congruence]. intros _. apply beyond_spec in B.
      destruct xin; [destruct Ax as ((? & ?) & _); lra|].
      destruct yin; [|destruct Ay as (_ & _ & Ay); specialize (Ay r H3); tauto]. cbn [kind]. split; [auto|]. split; [discriminate|auto].
    - destruct (grid_corner (s_nx s) (s_ny s) i j) eqn:B; [|congruence]. intros _. apply corner_spec in B as [B1 B2].
      destruct xin. { destruct Ax as (_ & c' & G1 & G2 & G3). rewrite (only_cell _ _ _ _ B2 H4 G2 H2 G1) in Bx. tauto. }
      destruct yin. { destruct Ay as (_ & c' & G1 & G2 & G3). rewrite (only_cell _ _ _ _ B1 H3 G2 H1 G1) in By. tauto. }
      cbn [kind]. split; [auto|]. split; discriminate. }
  destruct (first_use _ _) as [[k [r c]]|] eqn:E.
  - destruct (first_use_nz _ _ _ _ E) as (K1 & K2 & K3). rewrite K2 in K1. destruct (U r c K3 K1) as (E1 & Q1 & Q2).
    exists r, c. split; [rewrite K2, E1; reflexivity|]. auto.
  - exfalso. pose proof (first_none _ _ E) as Z0. clear U E.
    assert (Cx : exists c, (c = j - 1 \/ c = j)%Z /\ (0 <= c < s_nx s - 1)%Z /\ between (node_x s c) (node_x s (c + 1)) xa = xin).
    { destruct xin.
      - destruct Ax as (_ & c & G1 & G2 & G3). exists c. split; [exact G1|]. split; [exact G2|]. apply between_spec. exact G3.
      - destruct Ax as (_ & G & N). destruct P as (N1 & _).
        exists (if j =? 0 then 0 else j - 1)%Z. assert (Hc : (0 <= (if j =? 0 then 0 else j - 1) < s_nx s - 1)%Z) by (destruct (Z.eqb_spec j 0); lia).
        split; [destruct (Z.eqb_spec j 0); lia|]. split; [exact Hc|]. apply between_not. apply N. exact Hc. }
    assert (Cy : exists r, (r = i - 1 \/ r = i)%Z /\ (0 <= r < s_ny s - 1)%Z /\ between (node_y s r) (node_y s (r + 1)) ya = yin).
    { destruct yin.
      - destruct Ay as (_ & c & G1 & G2 & G3). exists c. split; [exact G1|]. split; [exact G2|]. apply between_spec. exact G3.
      - destruct Ay as (_ & G & N). destruct P as (_ & N1 & _).
        exists (if i =? 0 then 0 else i - 1)%Z. assert (Hc : (0 <= (if i =? 0 then 0 else i - 1) < s_ny s - 1)%Z) by (destruct (Z.eqb_spec i 0); lia).
        split; [destruct (Z.eqb_spec i 0); lia|]. split; [exact Hc|]. apply between_not. apply N. exact Hc. }
    destruct Cx as (c & X1 & X2 & X3). destruct Cy as (r & Y1 & Y2 & Y3).
    specialize (Z0 (r, c) ltac:(apply touch_in; auto)). unfold cell_use in Z0. cbv zeta in Z0. cbn [fst snd] in Z0. rewrite X3, Y3 in Z0.
    destruct xin, yin; [discriminate| | |].
    + destruct Ay as (G & _). apply beyond_spec in G. rewrite G in Z0. discriminate.
    + destruct Ax as (G & _). apply beyond_spec in G. rewrite G in Z0. discriminate.
    + destruct Ay as (_ & Gy & _). destruct Ax as (_ & Gx & _). assert (G : grid_corner (s_nx s) (s_ny s) i j = true) by (apply corner_spec; split; tauto).
      rewrite G in Z0. discriminate.
Qed.

Lemma tri_inv {A B C} (a a' : A) (b b' : B) (c c' : C) : (a, b, c) = (a', b', c') -> a = a' /\ b = b' /\ c = c'.
Proof. intros H. injection H as -> -> ->. auto. Qed.
(** new values depend on the cell only through the interpolation at one position *)
Lemma updated_same F (s : settings R) t f r c r' c' xj yi xa ya k p px py pxy :
  (k = 1%Z -> herm3 s f r c xa ya = herm3 s f r' c' xa ya) -> (k = 2%Z -> herm3 s f r c xa yi = herm3 s f r' c' xa yi) ->
  (k = 3%Z -> herm3 s f r c xj ya = herm3 s f r' c' xj ya) -> (k = 1 \/ k = 2 \/ k = 3 \/ k = 4)%Z ->
  let up r c := updated F (s_psischeme s) (s_rk3 s) t (s_dt s) (s_Tp s) (s_dx s) (s_dy s) (node_x s c) (node_y s r) xj yi xa ya
        (quad_at (SpecRefRun.f_phi f) r c) (quad_at (f_x f) r c) (quad_at (f_y f) r c) (quad_at (f_xy f) r c) k p px py pxy in
  up r c = up r' c'.
Proof.
  intros H1 H2 H3 Hk up. unfold up, updated. cbv zeta. unfold herm3 in H1, H2, H3. cbv zeta in H1, H2, H3.
  destruct Hk as [->|[->|[->| ->]]].
  - specialize (H1 eq_refl). apply tri_inv in H1 as (E1 & E2 & E3). rewrite E1, E2, E3. reflexivity.
  - specialize (H2 eq_refl). apply tri_inv in H2 as (E1 & E2 & E3). rewrite E1, E2. reflexivity.
  - specialize (H3 eq_refl). apply tri_inv in H3 as (E1 & E2 & E3). rewrite E1, E3. reflexivity.
  - reflexivity.
Qed.

(** a cell next to the node holds the node *)
Lemma node_cell lo d i r : 0 < d -> (r = i - 1 \/ r = i)%Z -> even_nodes lo d r <= even_nodes lo d i <= even_nodes lo d (r + 1).
Proof. intros D [-> | ->]; split; apply even_mono; auto; lia. Qed.
Lemma clamp_node n x lo hi j v c : sorted_nodes n x lo hi -> cell_around n x lo hi v c -> (j = 0%Z /\ v <= lo \/ j = (n - 1)%Z /\ hi <= v) ->
  lo < hi -> x c <= x j <= x (c + 1)%Z.
Proof.
  intros (S1 & S2 & S3) (A & B & C & D) H L. unfold clamp in *. destruct H as [[-> H]|[-> H]].
  - rewrite S1. rewrite Rmin_left, Rmax_left in C, D by lra. lra.
  - rewrite S2. rewrite Rmin_right, Rmax_right in C, D by lra. lra.
Qed.

Lemma old_new s F t f i j : proper s -> (0 <= i < s_ny s)%Z -> (0 <= j < s_nx s)%Z -> one_cell F s t i j -> off_limits F s t i j ->
  old_node F s (node_x s) (node_y s) t f i j = new_node true F s (node_x s) (node_y s) t f i j.
Proof.
  intros P Hi Hj O1 O2. unfold one_cell, off_limits in *. cbv zeta in O1, O2.
  destruct (where_cases true F s t i j P) as [W K]. cbv zeta in W, K.
  assert (Ef : foot true F s (node_x s) (node_y s) t i j = back_trace F (s_rk3 s) (node_x s j) (node_y s i) t (s_dt s) (s_Tp s)) by reflexivity.
  unfold old_node, new_node. cbv zeta. rewrite Ef in *.
  destruct (back_trace F (s_rk3 s) (node_x s j) (node_y s i) t (s_dt s) (s_Tp s)) as [xa ya]. cbn [fst snd] in *. clear Ef.
  destruct O1 as [A1 A2]. destruct O2 as (B1 & B2 & B3 & B4). pose proof (dx_pos s P) as Dx. pose proof (dy_pos s P) as Dy.
  pose proof P as (N1 & N2 & L1 & L2).
  destruct (axis_cases (s_nx s) (s_xlim1 s) (s_dx s) (s_xlim2 s) j xa Dx ltac:(lia) Hj (proj2 (limits_x s P)) A1) as [xin Ax].
  destruct (axis_cases (s_ny s) (s_ylim1 s) (s_dy s) (s_ylim2 s) i ya Dy ltac:(lia) Hi (proj2 (limits_y s P)) A2) as [yin Ay].
  change (even_nodes (s_xlim1 s) (s_dx s)) with (node_x s) in Ax. change (even_nodes (s_ylim1 s) (s_dy s)) with (node_y s) in Ay.
  destruct (use_kind s i j xa ya xin yin P Hi Hj Ax Ay) as (r & c & E & Hin & Ix & Iy). rewrite E. clear E.
  apply touch_in in Hin as (T1 & T2 & T3 & T4).
  destruct (where_ true F s (node_x s) (node_y s) t i j) as [w [cx cy]]. cbn [fst snd] in *. rewrite diff_x, diff_y.
  assert (Sx : if xin then inside (s_xlim1 s) (s_xlim2 s) xa else ~ inside (s_xlim1 s) (s_xlim2 s) xa).
  { unfold inside. destruct xin; destruct Ax as [Ax _]; lra. }
  assert (Sy : if yin then inside (s_ylim1 s) (s_ylim2 s) ya else ~ inside (s_ylim1 s) (s_ylim2 s) ya).
  { unfold inside. destruct yin; destruct Ay as [Ay _]; lra. }
  assert (Ew : w = kind xin yin). { destruct xin, yin; cbn [kind]; tauto. }
  rewrite Ew in *.
  apply updated_same.
  - intros Hk. destruct xin, yin; try discriminate. specialize (Ix eq_refl). specialize (Iy eq_refl).
    destruct (K ltac:(cbn; lia)) as [(K1 & K2 & K3 & K4) (K5 & K6 & K7 & K8)]. rewrite clamp_in in K3, K4 by exact Sx. rewrite clamp_in in K7, K8 by exact Sy.
    apply cells_same; [exact P|split; assumption|split; split; assumption].
  - intros Hk. destruct xin, yin; try discriminate. specialize (Ix eq_refl).
    destruct (K ltac:(cbn; lia)) as [(K1 & K2 & K3 & K4) K5]. rewrite clamp_in in K3, K4 by exact Sx.
    apply cells_same; [exact P|split; [assumption|apply node_cell; [exact Dy|exact T1]]|]. split; [split; assumption|].
    apply (clamp_node _ _ _ _ i ya cy (sorted_y s P) K5); [|exact L2]. destruct Ay as (_ & [[? ?]|[? ?]] & _); [left|right]; split; try assumption; lra.
  - intros Hk. destruct xin, yin; try discriminate. specialize (Iy eq_refl).
    destruct (K ltac:(cbn; lia)) as [K5 (K1 & K2 & K3 & K4)]. rewrite clamp_in in K3, K4 by exact Sy.
    apply cells_same; [exact P|split; [apply node_cell; [exact Dx|exact T2]|assumption]|]. split; [|split; assumption].
    apply (clamp_node _ _ _ _ j xa cx (sorted_x s P) K5); [|exact L1]. destruct Ax as (_ & [[? ?]|[? ?]] & _); [left|right]; split; try assumption; lra.
  - destruct xin, yin; cbn; lia.
Qed.

(** a step that treats every node alike leaves the same data *)
Lemma next_old_new s F t f : proper s -> (forall i j, (0 <= i < s_ny s)%Z -> (0 <= j < s_nx s)%Z -> one_cell F s t i j /\ off_limits F s t i j) ->
  agree (s_nx s) (s_ny s) (old_next F s (node_x s) (node_y s) t f) (next true F s (node_x s) (node_y s) t f).
Proof.
  intros P H. assert (E : forall i j, (0 <= i < s_ny s)%Z -> (0 <= j < s_nx s)%Z ->
    old_node F s (node_x s) (node_y s) t f i j = new_node true F s (node_x s) (node_y s) t f i j).
  { intros i j Hi Hj. destruct (H i j Hi Hj). apply old_new; assumption. }
  intros i j Hi Hj. unfold old_next, next. cbv zeta. cbn [SpecRefRun.f_phi f_x f_y f_xy]. rewrite E by assumption.
  split; [reflexivity|]. split; [reflexivity|]. split; [reflexivity|]. destruct P as (N1 & N2 & _).
  apply mixed_agree; try lia; intros; rewrite E by assumption; reflexivity.
Qed.
Lemma after_old_new s F k f : proper s ->
  (forall t i j, (0 <= t < Z.of_nat k)%Z -> (0 <= i < s_ny s)%Z -> (0 <= j < s_nx s)%Z -> one_cell F s t i j /\ off_limits F s t i j) ->
  agree (s_nx s) (s_ny s) (old_after F s (node_x s) (node_y s) k f) (after true F s (node_x s) (node_y s) k f).
Proof.
  intros P. induction k as [|k IH]; intros H.
  - cbn [old_after after]. intros i j _ _. auto.
  - cbn [old_after after]. eapply agree_trans; [apply next_old_new; [exact P|]|].
    + intros i j Hi Hj. apply H; lia.
    + apply next_agree; [exact P|apply sorted_x; exact P|apply sorted_y; exact P|]. apply IH. intros; apply H; lia.
Qed.

(** *** a node traced further than one cell is not updated *)
Lemma far_kept s F t f i j : proper s -> (0 <= i < s_ny s)%Z -> (0 <= j < s_nx s)%Z ->
  let p := back_trace F (s_rk3 s) (node_x s j) (node_y s i) t (s_dt s) (s_Tp s) in
  s_xlim1 s <= fst p <= s_xlim2 s -> s_ylim1 s <= snd p <= s_ylim2 s ->
  s_dx s < Rabs (fst p - node_x s j) \/ s_dy s < Rabs (snd p - node_y s i) -> grid_corner (s_nx s) (s_ny s) i j = false ->
  old_node F s (node_x s) (node_y s) t f i j = (SpecRefRun.f_phi f i j, f_x f i j, f_y f i j).
Proof.
  intros P Hi Hj p Bx By Far G. unfold old_node. cbv zeta. fold p. destruct p as [xa ya]. cbn [fst snd] in *.
  destruct (first_use _ _) as [[k [r c]]|] eqn:E; [|reflexivity]. exfalso.
  destruct (first_use_nz _ _ _ _ E) as (K1 & K2 & K3). apply touch_in in K3 as (T1 & T2 & T3 & T4).
  assert (Nc : ~ (node_x s c <= xa <= node_x s (c + 1) /\ node_y s r <= ya <= node_y s (r + 1))).
  { intros [C1 C2]. pose proof (dx_pos s P). pose proof (dy_pos s P).
    assert (Ax : Rabs (xa - node_x s j) <= s_dx s).
    { unfold node_x in *. rewrite even_succ in C1. apply Rabs_le. destruct T2 as [-> | ->]; [rewrite even_pred in C1|]; lra. }
    assert (Ay : Rabs (ya - node_y s i) <= s_dy s).
    { unfold node_y in *. rewrite even_succ in C2. apply Rabs_le. destruct T1 as [-> | ->]; [rewrite even_pred in C2|]; lra. }
    lra. }
  apply K1. rewrite K2. unfold cell_use. cbv zeta. cbn [fst snd]. rewrite G.
  replace (beyond (s_ylim1 s) (s_ylim2 s) ya) with false by (symmetry; apply beyond_not; exact By).
  replace (beyond (s_xlim1 s) (s_xlim2 s) xa) with false by (symmetry; apply beyond_not; exact Bx).
  destruct (between (node_x s c) _ _) eqn:B1; destruct (between (node_y s r) _ _) eqn:B2; try reflexivity.
  apply between_spec in B1, B2. tauto.
Qed.

(** *** planes in a constant velocity *)
Lemma old_plane (F : flow R) s t a b c u v : proper s ->
  velocity_is F (s_Tp s) (fun _ _ _ => u) (fun _ _ _ => v) -> flat_gradients F (s_Tp s) ->
  Rabs (u * s_dt s) <= s_dx s -> Rabs (v * s_dt s) <= s_dy s ->
  agree (s_nx s) (s_ny s) (old_next F s (node_x s) (node_y s) t (plane (node_x s) (node_y s) a b c))
    (plane (node_x s) (node_y s) (a - b * (u * s_dt s) - c * (v * s_dt s)) b c).
Proof.
  intros P V G Cu Cv. pose proof (dx_pos s P) as Dx. pose proof (dy_pos s P) as Dy. pose proof P as (N1 & N2 & L1 & L2).
  assert (E : forall i j, (0 <= i < s_ny s)%Z -> (0 <= j < s_nx s)%Z ->
    old_node F s (node_x s) (node_y s) t (plane (node_x s) (node_y s) a b c) i j =
    (a - b * (u * s_dt s) - c * (v * s_dt s) + b * node_x s j + c * node_y s i, b, c)).
  { intros i j Hi Hj. unfold old_node. cbv zeta.
    assert (Ef : back_trace F (s_rk3 s) (node_x s j) (node_y s i) t (s_dt s) (s_Tp s) = (node_x s j - u * s_dt s, node_y s i - v * s_dt s)).
    { apply (trace_constant F (s_Tp s) u v); assumption. }
    rewrite Ef. cbn [fst snd].
    assert (A1 : Rabs (node_x s j - u * s_dt s - node_x s j) <= s_dx s). { replace (node_x s j - u * s_dt s - node_x s j) with (- (u * s_dt s)) by ring. rewrite Rabs_Ropp. exact Cu. }
    assert (A2 : Rabs (node_y s i - v * s_dt s - node_y s i) <= s_dy s). { replace (node_y s i - v * s_dt s - node_y s i) with (- (v * s_dt s)) by ring. rewrite Rabs_Ropp. exact Cv. }
    destruct (axis_cases (s_nx s) (s_xlim1 s) (s_dx s) (s_xlim2 s) j _ Dx ltac:(lia) Hj (proj2 (limits_x s P)) A1) as [xin Ax].
    destruct (axis_cases (s_ny s) (s_ylim1 s) (s_dy s) (s_ylim2 s) i _ Dy ltac:(lia) Hi (proj2 (limits_y s P)) A2) as [yin Ay].
    destruct (use_kind s i j _ _ xin yin P Hi Hj Ax Ay) as (r & cc & -> & Hin & Ix & Iy).
    unfold quad_at, plane. cbn [SpecRefRun.f_phi f_x f_y f_xy].
    unfold node_x, node_y. rewrite !even_succ. fold (node_x s) (node_y s).
    pose proof (fun X Y => hp_plane a b c X Y (node_x s cc) (node_y s r) (s_dx s) (s_dy s) (Rgt_not_eq _ _ Dx) (Rgt_not_eq _ _ Dy)) as Hp. cbv zeta in Hp.
    assert (Vx : forall X Y S, Velx F X Y S (s_Tp s) = u) by (intros; apply V). assert (Vy : forall X Y S, Vely F X Y S (s_Tp s) = v) by (intros; apply V).
    assert (G1 : forall X Y S, gradUx F X Y S (s_Tp s) = 0) by (intros; apply G). assert (G2 : forall X Y S, gradUy F X Y S (s_Tp s) = 0) by (intros; apply G).
    assert (G3 : forall X Y S, gradVx F X Y S (s_Tp s) = 0) by (intros; apply G). assert (G4 : forall X Y S, gradVy F X Y S (s_Tp s) = 0) by (intros; apply G).
    change (even_nodes (s_xlim1 s) (s_dx s)) with (node_x s). change (even_nodes (s_ylim1 s) (s_dy s)) with (node_y s).
    unfold updated. cbv zeta.
    destruct xin, yin; cbn [kind].
    - rewrite !(proj1 (Hp _ _)), !(proj1 (proj2 (Hp _ _))), !(proj2 (proj2 (Hp _ _))).
      assert (H1 : Heuns_internal F (node_x s j) (node_y s i) (node_x s j - u * s_dt s) (node_y s i - v * s_dt s) b c t (s_dt s) (s_Tp s) = (b, c)).
      { unfold Heuns_internal. cbv zeta. rewrite !G1, !G2, !G3, !G4. nr. f_equal; field. }
      assert (H2 : SuperConsistentScheme F (s_rk3 s) (node_x s j) (node_y s i) b c t (s_dt s) (s_Tp s) = (b, c)).
      { unfold SuperConsistentScheme. cbv zeta. rewrite !G1, !G2, !G3, !G4. destruct (s_rk3 s); nr; f_equal; field. }
      rewrite H1, H2.
      destruct (String.eqb "Heuns" (s_psischeme s)); [|destruct (String.eqb "SuperConsistent" (s_psischeme s))]; cbn [fst snd]; apply tri_eq; ring.
    - rewrite !(proj1 (Hp _ _)), !(proj1 (proj2 (Hp _ _))), !Vy. unfold Heuns_X. cbv zeta. rewrite !G1, !G3, !Vy. nr. apply tri_eq; field.
    - rewrite !(proj1 (Hp _ _)), !(proj2 (proj2 (Hp _ _))), !Vx. unfold Heuns_Y. cbv zeta. rewrite !G2, !G4, !Vx. nr. apply tri_eq; field.
    - rewrite !Vx, !Vy. nr. apply tri_eq; ring. }
  intros i j Hi Hj. unfold old_next. cbv zeta. cbn [SpecRefRun.f_phi f_x f_y f_xy plane]. rewrite (E i j Hi Hj). cbn [fst snd].
  split; [reflexivity|]. split; [reflexivity|]. split; [reflexivity|].
  rewrite (mixed_agree _ _ _ _ _ (fun _ _ => b) _ (fun _ _ => c)); try lia; [|intros; rewrite E by assumption; reflexivity|intros; rewrite E by assumption; reflexivity].
  unfold mixed_val, sx, sy, comb. cbv zeta. nr.
  repeat match goal with |- context [if ?e then _ else _] => destruct e end; field; repeat split; apply Rgt_not_eq; assumption.
Qed.

Lemma old_next_agree (F : flow R) s x y t f g : (2 <= s_nx s)%Z -> (2 <= s_ny s)%Z ->
  agree (s_nx s) (s_ny s) f g -> agree (s_nx s) (s_ny s) (old_next F s x y t f) (old_next F s x y t g).
Proof.
  intros N1 N2 A.
  assert (E : forall i j, (0 <= i < s_ny s)%Z -> (0 <= j < s_nx s)%Z -> old_node F s x y t f i j = old_node F s x y t g i j).
  { intros i j Hi Hj. unfold old_node. cbv zeta. destruct (A i j Hi Hj) as (-> & -> & -> & ->).
    destruct (first_use _ _) as [[k [r c]]|] eqn:E; [|reflexivity].
    destruct (first_use_nz _ _ _ _ E) as (_ & _ & K). apply touch_in in K as (_ & _ & K1 & K2). unfold quad_at.
    destruct (A r c ltac:(lia) ltac:(lia)) as (-> & -> & -> & ->). destruct (A r (c + 1)%Z ltac:(lia) ltac:(lia)) as (-> & -> & -> & ->).
    destruct (A (r + 1)%Z c ltac:(lia) ltac:(lia)) as (-> & -> & -> & ->). destruct (A (r + 1)%Z (c + 1)%Z ltac:(lia) ltac:(lia)) as (-> & -> & -> & ->).
    reflexivity. }
  intros i j Hi Hj. unfold old_next. cbv zeta. cbn [SpecRefRun.f_phi f_x f_y f_xy]. rewrite (E i j Hi Hj).
  split; [reflexivity|]. split; [reflexivity|]. split; [reflexivity|].
  apply mixed_agree; try lia; intros; rewrite E by assumption; reflexivity.
Qed.
Lemma old_after_plane (F : flow R) s a b c u v k : proper s ->
  velocity_is F (s_Tp s) (fun _ _ _ => u) (fun _ _ _ => v) -> flat_gradients F (s_Tp s) ->
  Rabs (u * s_dt s) <= s_dx s -> Rabs (v * s_dt s) <= s_dy s ->
  agree (s_nx s) (s_ny s) (old_after F s (node_x s) (node_y s) k (plane (node_x s) (node_y s) a b c))
    (plane (node_x s) (node_y s) (a - b * (u * (INR k * s_dt s)) - c * (v * (INR k * s_dt s))) b c).
Proof.
  intros P V G Cu Cv. induction k as [|k IH].
  - cbn [old_after INR]. intros i j Hi Hj. unfold plane. cbn [SpecRefRun.f_phi f_x f_y f_xy]. repeat split; ring.
  - cbn [old_after]. destruct P as (N1 & N2 & P'). eapply agree_trans; [apply old_next_agree; [lia|lia|exact IH]|].
    eapply agree_trans; [apply old_plane with (u := u) (v := v); try assumption; repeat split; lia || apply P'|].
    rewrite S_INR. intros i j Hi Hj. unfold plane. cbn [SpecRefRun.f_phi f_x f_y f_xy]. repeat split; ring.
Qed.

(** *** the walls of the vortex flow *)
Lemma old_wall s t f i j : proper s -> unit_square s -> (0 <= i < s_ny s)%Z -> (j = 0 \/ j = s_nx s - 1)%Z ->
  s_psischeme s = "SuperConsistent"%string -> s_backtrace s = "RK3"%string ->
  let g q := 2 * PI * (sin (PI * node_y s i))² * cos (PI * q / s_Tp s) in
  old_node vortex s (node_x s) (node_y s) t f i j = (SpecRefRun.f_phi f i j,
    f_x f i j + s_dt s / 6 * (g (time_at (t + 1) (s_dt s)) + g (time_at t (s_dt s)) + 4 * g (time_mid t (s_dt s))) * f_y f i j, f_y f i j).
Proof.
  intros P U Hi Hj Sc Bt g. pose proof P as (N1 & N2 & L1 & L2). pose proof (dx_pos s P) as Dx. pose proof (dy_pos s P) as Dy.
  assert (Hj' : (0 <= j < s_nx s)%Z) by lia.
  destruct (wall_rests s i j P U Hi Hj' ltac:(tauto)) as (Hr & Hx & _).
  unfold old_node. cbv zeta. rewrite (rest_trace _ _ _ _ _ _ _ Hr). cbn [fst snd].
  destruct (axis_cases (s_nx s) (s_xlim1 s) (s_dx s) (s_xlim2 s) j (node_x s j) Dx ltac:(lia) Hj' (proj2 (limits_x s P))) as [xin Ax].
  { fold (node_x s). rewrite Rminus_diag_eq, Rabs_R0 by reflexivity. lra. }
  destruct (axis_cases (s_ny s) (s_ylim1 s) (s_dy s) (s_ylim2 s) i (node_y s i) Dy ltac:(lia) Hi (proj2 (limits_y s P))) as [yin Ay].
  { fold (node_y s). rewrite Rminus_diag_eq, Rabs_R0 by reflexivity. lra. }
  pose proof (node_in _ _ _ _ j (sorted_x s P) Hj') as Bx. pose proof (node_in _ _ _ _ i (sorted_y s P) Hi) as By.
  destruct xin; [|destruct Ax as [Ax _]; exfalso; lra]. destruct yin; [|destruct Ay as [Ay _]; exfalso; lra].
  destruct (use_kind s i j _ _ true true P Hi Hj' Ax Ay) as (r & c & -> & Hin & _ & _). cbn [kind].
  apply touch_in in Hin as (T1 & T2 & _).
  unfold updated. cbv zeta. rewrite Sc. cbn [String.eqb Ascii.eqb Bool.eqb].
  destruct (hp_node s f i j c r P ltac:(lia) ltac:(lia)) as (E1 & E2 & E3). cbv zeta in E1, E2, E3. rewrite E1, E2, E3.
  unfold s_rk3. rewrite Bt. change (is_rk3 "RK3") with true.
  assert (Vx : forall q, Velx vortex (node_x s j) (node_y s i) q (s_Tp s) = 0) by (intros; apply Hr).
  assert (Vy : forall q, Vely vortex (node_x s j) (node_y s i) q (s_Tp s) = 0) by (intros; apply Hr).
  assert (G0 : forall q, gradUx vortex (node_x s j) (node_y s i) q (s_Tp s) = 0 /\ gradUy vortex (node_x s j) (node_y s i) q (s_Tp s) = 0 /\
     gradVx vortex (node_x s j) (node_y s i) q (s_Tp s) = - g q /\ gradVy vortex (node_x s j) (node_y s i) q (s_Tp s) = 0).
  { intros q. destruct (vortex_wall_x (node_x s j) (node_y s i) (s_Tp s) q (Hx Hj)) as (_ & _ & A & B). split; [|split; [exact A|split; [|exact B]]].
    - unfold vortex. cbn [gradUx]. nr. destruct (Hx Hj) as [-> | ->]; rewrite ?Rmult_0_r, ?Rmult_1_r, ?sin_0, ?sin_2PI; ring.
    - unfold vortex, g. cbn [gradVx]. unfold sqr, Rsqr. nr. destruct (Hx Hj) as [-> | ->]; rewrite ?Rmult_0_r, ?Rmult_1_r, ?cos_0, ?cos_2PI; ring. }
  assert (G1 : forall q, gradUx vortex (node_x s j) (node_y s i) q (s_Tp s) = 0) by (intros; apply G0).
  assert (G2 : forall q, gradUy vortex (node_x s j) (node_y s i) q (s_Tp s) = 0) by (intros; apply G0).
  assert (G3 : forall q, gradVx vortex (node_x s j) (node_y s i) q (s_Tp s) = - g q) by (intros; apply G0).
  assert (G4 : forall q, gradVy vortex (node_x s j) (node_y s i) q (s_Tp s) = 0) by (intros; apply G0).
  clear G0. clearbody g. unfold SuperConsistentScheme. cbv zeta. rewrite !Vx, !Vy. nr.
  replace (node_x s j - 0 * s_dt s) with (node_x s j) by ring. replace (node_y s i - 0 * s_dt s) with (node_y s i) by ring.
  rewrite !Vx, !Vy.
  replace (node_x s j - s_dt s / 2 * (1 / 2 * 0 + 1 / 2 * 0)) with (node_x s j) by field.
  replace (node_y s i - s_dt s / 2 * (1 / 2 * 0 + 1 / 2 * 0)) with (node_y s i) by field.
  rewrite !G1, !G2, !G3, !G4. cbn [fst snd]. apply tri_eq; field.
Qed.

Lemma wall_differs s f i j m : proper s -> unit_square s -> (0 < i < s_ny s - 1)%Z -> (j = 0 \/ j = s_nx s - 1)%Z ->
  s_psischeme s = "SuperConsistent"%string -> s_backtrace s = "RK3"%string -> 0 < s_dt s < s_Tp s / 2 -> f_y f i j <> 0 ->
  nodes_at (s_nx s) (s_ny s) (node_x s) (node_y s) m -> contains (s_nx s) (s_ny s) f m -> present Tracker (s_ny s) (s_nx s) m ->
  exists m1 m2 a b, old_step vortex s 0 m = Ok m1 /\ step true vortex s 0 m = Ok m2 /\
    m1 (MPsix, i, j) = Some (D a) /\ m2 (MPsix, i, j) = Some (D b) /\ b = f_x f i j /\ a <> b.
Proof.
  intros P U Hi Hj Sc Bt Dt Fy Hn Hc Ht. pose proof P as (N1 & N2 & L1 & L2).
  destruct (old_step_ok vortex s (node_x s) (node_y s) 0 f m ltac:(lia) ltac:(lia) Hn Hc Ht) as (m1 & R1 & _ & C1 & _).
  destruct (step_next true vortex s (node_x s) (node_y s) 0 f m N1 N2) as (m2 & R2 & _ & C2 & _); [|assumption|assumption|].
  { intros i' j' Hi' Hj'. apply where_bounds; try lia; [apply sorted_x; exact P|apply sorted_y; exact P]. }
  exists m1, m2, (f_x (old_next vortex s (node_x s) (node_y s) 0 f) i j), (f_x (next true vortex s (node_x s) (node_y s) 0 f) i j).
  split; [exact R1|]. split; [exact R2|].
  split. { apply C1; lia. } split. { apply C2; lia. }
  assert (E2 : f_x (next true vortex s (node_x s) (node_y s) 0 f) i j = f_x f i j).
  { unfold next. cbv zeta. cbn [f_x]. rewrite new_wall by (auto; lia). reflexivity. }
  split; [exact E2|]. rewrite E2. unfold old_next. cbv zeta. cbn [f_x]. rewrite old_wall by (auto; lia). cbn [fst snd].
  assert (T1 : time_at (0 + 1) (s_dt s) = s_dt s). { unfold time_at. change (u32 (0 + 1)) with 1%Z. nr. ring. }
  assert (T0 : time_at 0 (s_dt s) = 0). { unfold time_at. change (u32 0) with 0%Z. nr. ring. }
  unfold time_mid. rewrite T1, T0. nr.
  set (S := (sin (PI * node_y s i))²).
  assert (Sp : 0 < S).
  { destruct U as (_ & _ & U3 & U4). pose proof (proj2 (node_inside _ _ _ _ i (sorted_y s P) ltac:(lia)) Hi) as [I1 I2]. rewrite U3 in I1. rewrite U4 in I2.
    unfold S. apply Rlt_0_sqr. apply Rgt_not_eq. pose proof PI_RGT_0 as Hpi. apply sin_gt_0.
    - apply Rmult_lt_0_compat; lra.
    - replace PI with (PI * 1) at 2 by ring. apply Rmult_lt_compat_l; lra. }
  clearbody S.
  assert (Cp : forall q, 0 <= q < s_Tp s / 2 -> 0 < cos (PI * q / s_Tp s)).
  { intros q Hq. pose proof PI_RGT_0 as Hpi. assert (Tpos : 0 < s_Tp s) by lra.
    assert (E : PI * q / s_Tp s = PI / 2 * (q / (s_Tp s / 2))) by (field; lra). rewrite E.
    assert (Q1 : 0 <= q / (s_Tp s / 2)) by (apply Rmult_le_pos; [lra|]; apply Rlt_le, Rinv_0_lt_compat; lra).
    assert (Q2 : q / (s_Tp s / 2) < 1) by (apply (Rmult_lt_reg_r (s_Tp s / 2)); [lra|]; unfold Rdiv at 1; rewrite Rmult_assoc, Rinv_l by lra; lra).
    apply cos_gt_0.
    - assert (0 <= PI / 2 * (q / (s_Tp s / 2))) by (apply Rmult_le_pos; lra). lra.
    - replace (PI / 2) with (PI / 2 * 1) at 2 by ring. apply Rmult_lt_compat_l; lra. }
  pose proof (Cp (s_dt s) ltac:(lra)) as P1. pose proof (Cp 0 ltac:(lra)) as P0. pose proof (Cp (0 + s_dt s / 2) ltac:(lra)) as Pm.
  set (k := s_dt s / 6 * (2 * PI * S * cos (PI * s_dt s / s_Tp s) + 2 * PI * S * cos (PI * 0 / s_Tp s) + 4 * (2 * PI * S * cos (PI * (0 + s_dt s / 2) / s_Tp s)))).
  assert (Kp : 0 < k).
  { unfold k. pose proof PI_RGT_0 as Hpi. apply Rmult_lt_0_compat; [lra|].
    assert (B : 0 < 2 * PI * S) by (apply Rmult_lt_0_compat; lra).
    pose proof (Rmult_lt_0_compat _ _ B P1). pose proof (Rmult_lt_0_compat _ _ B P0). pose proof (Rmult_lt_0_compat _ _ B Pm). lra. }
  clearbody k. intros E. assert (K0 : k * f_y f i j = 0) by lra. apply Rmult_integral in K0. lra.
Qed.
