(** The interpolation calls of the API, reduced to the interpolant of one cell. *)
From Coq Require Import ZArith List Lia Bool Reals Lra.
From Verif Require Import Base Num ModelVec ModelGrid ModelArray ModelInterp SpecGrid SpecInterp
  ProofsBase ProofsGrid ProofsArray ProofsGridProps ProofsHermite ProofsHermiteCell ProofsHermiteExact.
Open Scope R_scope.

Definition val {A} (d : A) (o : outcome A) : A := match o with Ok x => x | _ => d end.
Definition cell_data (g : grid R) (l : levelset R) (c : cell) : nodal R :=
  let m := val [] (peek g (ls_mix_prev l) c) in
  mkNodal (val 0 (peek g (ls_phi_prev l) c)) (val (V3 0 0 0) (peek g (ls_psi_prev l) c))
    (nth 0 m 0) (nth 1 m 0) (nth 2 m 0) (nth 3 m 0).

Section Ctx.
Variables (ov : ovmode) (dim : nat) (n : vec3 Z) (pad : Z) (bmin bmax : vec3 R) (g : grid R) (l : levelset R).
Hypothesis Hb : built ov dim n pad bmin bmax g.
Hypothesis Hpad : (1 <= pad)%Z.
Hypothesis Hl : levelset_on g l.

Let F := built_ok _ _ _ _ _ _ _ Hb.
Let Hok : okgrid ov g := bf_ok _ _ _ _ _ _ _ F.

Lemma dim_range : (1 <= dim <= 3)%nat.
Proof. apply Hb. Qed.

Lemma data_read {A} (a : array A) (d : A) i j k : array_on g a -> gcell_for ov g (i, j, k) ->
  aget ov g a i j k = Ok (val d (peek g a (project dim (i, j, k)))) /\
  exists x, peek g a (project dim (i, j, k)) = Ok x.
Proof.
  intros Ha Hc. apply (array_on_shaped _ _ _ _ _ _ _ a Hb) in Ha.
  rewrite (aget_peek ov) by auto. rewrite <- (peek_project g), (bf_dim _ _ _ _ _ _ _ F).
  assert (Hp : gcell g (project dim (i, j, k))).
  { rewrite <- (bf_dim _ _ _ _ _ _ _ F). eapply project_padded. exact Hc. }
  destruct (peek_ok ov g a _ Hok Ha Hp) as (x & ->). split; [reflexivity|eauto].
Qed.

Lemma vread_In {A} (d : list A) z x : vread d z = Ok x -> In x d.
Proof.
  unfold vread. destruct (0 <=? z)%Z; [|discriminate].
  destruct (nth_error d (Z.to_nat z)) eqn:E; [|discriminate]. intros H; inversion H; subst.
  eapply nth_error_In; eauto.
Qed.

Lemma read_node_ok i j k : gcell_for ov g (i, j, k) ->
  read_node ov g l (V3 i j k) = Ok (cell_data g l (project dim (i, j, k))).
Proof.
  intros Hc. unfold read_node, aget_v. cbn [vx vy vz].
  destruct (data_read (ls_phi_prev l) 0 i j k (on_phi_prev _ _ Hl) Hc) as (-> & _).
  destruct (data_read (ls_psi_prev l) (V3 0 0 0) i j k (on_psi_prev _ _ Hl) Hc) as (-> & _).
  destruct (data_read (ls_mix_prev l) [] i j k (on_mix_prev _ _ Hl) Hc) as (E & m & Em).
  pose proof (on_mix_len _ _ Hl) as HL. rewrite Forall_forall in HL.
  specialize (HL m (vread_In _ _ _ Em)).
  cbn [bind]. unfold cell_data. rewrite Em in *. cbn [val] in *.
  rewrite (bf_dim _ _ _ _ _ _ _ F) in *. pose proof dim_range as Hd.
  dim_cases Hd; cbn [mixed_count] in HL.
  - destruct m; [|discriminate]. reflexivity.
  - destruct m as [|m0 [|]]; try discriminate. rewrite E. reflexivity.
  - destruct m as [|m0 [|m1 [|m2 [|m3 [|]]]]]; try discriminate. rewrite E. reflexivity.
Qed.

(** base cell and local coordinates of a position *)
Definition lc (a : axis) (x : R) : R := lattice_coord (vget bmin a) (vget bmax a) (vget n a) x.
Definition bcoord (x : vec3 R) (a : axis) : Z := if used dim a then Rfloor (lc a (vget x a)) else 0%Z.
Definition bcell (x : vec3 R) : cell := (bcoord x AX, bcoord x AY, bcoord x AZ).
(** local coordinates of x with respect to any cell *)
Definition loc (b : cell) (x : vec3 R) : vec3 R :=
  let f a := if used dim a then lc a (vget x a) - IZR (ccoord b a) else 0 in V3 (f AX) (f AY) (f AZ).

Lemma loc_get b x a : vget (loc b x) a = if used dim a then lc a (vget x a) - IZR (ccoord b a) else 0.
Proof. destruct a; reflexivity. Qed.
(** the local coordinate the code computes with padding [pad]: off by pad-1 cells *)
Definition locp (b : cell) (x : vec3 R) : vec3 R :=
  let f a := if used dim a then vget (loc b x) a - (IZR pad - 1) else 0 in V3 (f AX) (f AY) (f AZ).
Lemma locp_get b x a : vget (locp b x) a = if used dim a then vget (loc b x) a - (IZR pad - 1) else 0.
Proof. destruct a; reflexivity. Qed.

Hypothesis Hbox : proper_box dim bmin bmax.

Lemma h_pos a : used dim a = true -> 0 < spacing (vget bmin a) (vget bmax a) (vget n a).
Proof. intros Hu. apply spacing_pos; [apply Hbox; auto|eapply good_used; eauto; apply Hb]. Qed.

Lemma lattice_lc x a : in_lattice dim n bmin bmax x -> used dim a = true ->
  -1 <= lc a (vget x a) < IZR (vget n a).
Proof.
  intros H Hu. specialize (H a Hu). cbv zeta in H. pose proof (h_pos a Hu) as Hp.
  unfold lc, lattice_coord. pose proof (good_used _ _ _ a (proj1 Hb) Hu) as Hn.
  assert (E : vget bmax a = vget bmin a + IZR (vget n a) * spacing (vget bmin a) (vget bmax a) (vget n a)).
  { unfold spacing. field. apply not_0_IZR. lia. }
  rewrite E in H at 2. set (h := spacing _ _ _) in *. set (xa := vget x a) in *. set (lo := vget bmin a) in *.
  assert (E2 : (xa - lo) / h * h = xa - lo) by (field; lra).
  set (q := (xa - lo) / h) in *. split.
  - apply Rmult_le_reg_r with h; lra.
  - apply Rmult_lt_reg_r with h; lra.
Qed.

Lemma bcoord_range x a : in_lattice dim n bmin bmax x -> used dim a = true ->
  (-1 <= bcoord x a <= vget n a - 1)%Z.
Proof.
  intros H Hu. pose proof (lattice_lc x a H Hu) as B. unfold bcoord. rewrite Hu.
  pose proof (Rfloor_spec (lc a (vget x a))) as S. set (z := Rfloor _) in *.
  assert (-1 < IZR z + 1) by lra. assert (IZR z < IZR (vget n a)) by lra.
  rewrite <- plus_IZR in *. apply lt_IZR in H0, H1. lia.
Qed.

Lemma lattice_fits x : in_lattice dim n bmin bmax x -> lat_fits dim n bmin bmax x.
Proof.
  intros H a Hu. pose proof (lattice_lc x a H Hu) as B. fold (lc a (vget x a)).
  pose proof (good_int _ _ _ a (proj1 Hb)) as (_ & G & _).
  assert (IZR (vget n a) <= IZR INT_MAX) by (apply IZR_le; lia).
  assert (IZR INT_MIN <= -1) by (apply IZR_le; unfold INT_MIN; lia). lra.
Qed.

Lemma bcell_coord x a : ccoord (bcell x) a = bcoord x a.
Proof. destruct a; reflexivity. Qed.

Hypothesis Hdef : interp_defined ov dim.

Lemma herm_eta Q b e e' h h' o o' lim : (forall a, used dim a = true -> vget e a = vget e' a) ->
  (forall a, used dim a = true -> vget h a = vget h' a) ->
  (forall a, used dim a = true -> vget o a = vget o' a) ->
  herm dim Q b e h o lim = herm dim Q b e' h' o' lim.
Proof.
  intros H1 H2 H3. pose proof dim_range as Hd.
  destruct e as [ex ey ez], e' as [ex' ey' ez'], h as [hx hy hz], h' as [hx' hy' hz'], o as [ox oy oz], o' as [ox' oy' oz'].
  pose proof (H1 AX eq_refl) as X1; pose proof (H2 AX eq_refl) as X2; pose proof (H3 AX eq_refl) as X3.
  cbn in X1, X2, X3. subst.
  dim_cases Hd.
  - reflexivity.
  - pose proof (H1 AY eq_refl) as Y1; pose proof (H2 AY eq_refl) as Y2; pose proof (H3 AY eq_refl) as Y3.
    cbn in Y1, Y2, Y3. subst. reflexivity.
  - pose proof (H1 AY eq_refl) as Y1; pose proof (H2 AY eq_refl) as Y2; pose proof (H3 AY eq_refl) as Y3.
    pose proof (H1 AZ eq_refl) as Z1; pose proof (H2 AZ eq_refl) as Z2; pose proof (H3 AZ eq_refl) as Z3.
    cbn in *. subst. reflexivity.
Qed.

Definition hs : vec3 R :=
  let f a := spacing (vget bmin a) (vget bmax a) (vget n a) in V3 (f AX) (f AY) (f AZ).
Definition os : vec3 R := V3 (/ vx hs) (/ vy hs) (/ vz hs).
Lemma hs_get a : vget hs a = spacing (vget bmin a) (vget bmax a) (vget n a).
Proof. destruct a; reflexivity. Qed.
Lemma os_get a : vget os a = / vget hs a.
Proof. destruct a; reflexivity. Qed.

Lemma project_base x (b : vec3 Z) : b = base_of dim n bmin bmax x ->
  project dim (vx b, vy b, vz b) = bcell x.
Proof.
  intros ->. unfold project, bcell, base_of, bcoord. cbn [vx vy vz]. cbn [used].
  destruct (Nat.leb 2 dim), (Nat.leb 3 dim); reflexivity.
Qed.

Lemma gfor (i j k : Z) :
  (-1 <= i <= vx n)%Z -> (if used dim AY then (-1 <= j <= vy n)%Z else ov = Wrap \/ j = 0%Z) ->
  (if used dim AZ then (-1 <= k <= vz n)%Z else ov = Wrap \/ k = 0%Z) ->
  gcell_for ov g (i, j, k).
Proof.
  intros Hi Hj Hk a. rewrite (bf_dim _ _ _ _ _ _ _ F), (bf_n _ _ _ _ _ _ _ F), (bf_pad _ _ _ _ _ _ _ F).
  destruct a; cbn [ccoord vget].
  - cbn [used]. lia.
  - destruct (used dim AY); [lia|]. destruct Hj as [-> | ->]; [exact I|destruct ov; auto].
  - destruct (used dim AZ); [lia|]. destruct Hk as [-> | ->]; [exact I|destruct ov; auto].
Qed.

Lemma base_pos x : in_lattice dim n bmin bmax x ->
  let b := base_of dim n bmin bmax x in
  exists xb, node_v ov g b = Ok xb /\
    forall a, used dim a = true ->
      vget (vmul (vsub x xb) (g_odx g)) a = vget (locp (bcell x) x) a.
Proof.
  intros Hx b.
  assert (Hc : gcell_for ov g (vx b, vy b, vz b)).
  { pose proof (bcoord_range x AX Hx eq_refl) as BX.
    apply gfor; unfold b, base_of; cbn [vx vy vz used]; fold (lc AX (vget x AX)) (lc AY (vget x AY)) (lc AZ (vget x AZ)).
    - unfold bcoord in BX; cbn [used vget] in BX. cbn [vget]. lia.
    - destruct (Nat.leb 2 dim) eqn:E.
      + pose proof (bcoord_range x AY Hx E) as BY. unfold bcoord in BY; cbn [used vget] in BY. rewrite E in BY. cbn [vget]. lia.
      + destruct Hdef as [-> | ->]; [auto|discriminate].
    - destruct (Nat.leb 3 dim) eqn:E.
      + pose proof (bcoord_range x AZ Hx E) as BZ. unfold bcoord in BZ; cbn [used vget] in BZ. rewrite E in BZ. cbn [vget]. lia.
      + destruct Hdef as [-> | ->]; [auto|discriminate]. }
  pose proof (project_padded ov _ _ _ _ Hc) as Hp.
  rewrite (bf_dim _ _ _ _ _ _ _ F), (bf_n _ _ _ _ _ _ _ F), (bf_pad _ _ _ _ _ _ _ F) in Hp.
  rewrite (project_base x b eq_refl) in Hp.
  destruct (node_position _ _ _ _ _ _ _ _ _ _ Hb Hp) as (p & Ep & Vp).
  exists p. split.
  - rewrite <- Ep. unfold node_v, node.
    rewrite index_ok by (auto; apply Hok). rewrite (index_built _ _ _ _ _ _ _ _ _ _ Hb Hp).
    unfold glin. rewrite (bf_dim _ _ _ _ _ _ _ F), (bf_n _ _ _ _ _ _ _ F), (bf_pad _ _ _ _ _ _ _ F).
    rewrite <- (lin_project _ _ _ (vx b, vy b, vz b)), (project_base x b eq_refl). reflexivity.
  - intros a Hu. rewrite locp_get, loc_get, Hu, bcell_coord. specialize (Vp a). rewrite Hu in Vp.
    assert (Ev : vget (vmul (vsub x p) (g_odx g)) a = (vget x a - vget p a) * vget (g_odx g) a)
      by (destruct a; reflexivity).
    rewrite Ev, Vp, (built_odx _ _ _ _ _ _ _ _ Hb Hu).
    change (bcoord x AX, bcoord x AY, bcoord x AZ) with (bcell x). rewrite bcell_coord.
    unfold centre, lc, lattice_coord. pose proof (h_pos a Hu).
    set (h := spacing _ _ _) in *. field. lra.
Qed.

Lemma succ_ok b : (-1 <= b <= INT_MAX - 1)%Z -> succ_id ov b = Ok (b + 1)%Z.
Proof. intros H. unfold succ_id, iadd. rewrite chk_ok; auto. unfold INT_MIN. lia. Qed.

(** The result of every interpolation inside the lattice. *)
Lemma interp_eval_pad x lim : in_lattice dim n bmin bmax x ->
  interpolate ov g x l lim = Ok (herm dim (cell_data g l) (bcell x) (locp (bcell x) x) hs os lim).
Proof.
  intros Hx.
  assert (Ebase := base_ok _ _ _ _ _ _ _ x Hb (lattice_fits x Hx)).
  destruct (base_pos x Hx) as (xb & Exb & Heta).
  assert (EA : forall a, used dim a = true -> vget (base_of dim n bmin bmax x) a = bcoord x a).
  { intros a Hu. unfold base_of, bcoord, lc. rewrite Hu. destruct a; cbn [vget vx vy vz]; rewrite Hu; reflexivity. }
  set (b := base_of dim n bmin bmax x) in *.
  assert (HR : forall a, used dim a = true -> (-1 <= bcoord x a <= vget n a - 1 /\ vget n a <= INT_MAX)%Z).
  { intros a Hu. pose proof (bcoord_range x a Hx Hu). pose proof (good_int _ _ _ a (proj1 Hb)) as (_ & G & _). lia. }
  pose proof (HR AX eq_refl) as RX. pose proof (EA AX eq_refl) as EX. cbn [vget] in RX, EX.
  assert (Hh : forall a, used dim a = true -> vget (g_dx g) a = vget hs a).
  { intros a _. rewrite hs_get. apply (built_dx _ _ _ _ _ _ _ _ Hb). }
  assert (Ho : forall a, used dim a = true -> vget (g_odx g) a = vget os a).
  { intros a Hu. rewrite os_get, hs_get. apply (built_odx _ _ _ _ _ _ _ _ Hb Hu). }
  assert (Rb : read_node ov g l b = Ok (cell_data g l (bcell x))).
  { destruct b as [bx by_ bz] eqn:Eb'. rewrite read_node_ok.
    - f_equal. f_equal. rewrite <- (project_base x b eq_refl). rewrite Eb'. reflexivity.
    - cbn [vx vy vz] in *. apply gfor; [lia| |].
      + destruct (used dim AY) eqn:E; [specialize (EA AY E); specialize (HR AY E); cbn [vget vx vy vz] in *; lia|].
        destruct Hdef as [-> | ->]; [auto|discriminate].
      + destruct (used dim AZ) eqn:E; [specialize (EA AZ E); specialize (HR AZ E); cbn [vget vx vy vz] in *; lia|].
        destruct Hdef as [-> | ->]; [auto|discriminate]. }
  unfold interpolate. rewrite (bf_dim _ _ _ _ _ _ _ F).
  rewrite <- (herm_eta (cell_data g l) (bcell x) (vmul (vsub x xb) (g_odx g)) _ (g_dx g) _ (g_odx g) _ lim Heta Hh Ho).
  clear Heta Hh Ho.
  pose proof dim_range as Hd.
  assert (PR : forall i j k, project dim (i, j, k) = (i, if used dim AY then j else 0, if used dim AZ then k else 0)%Z) by reflexivity.
  assert (EB : bcell x = (bcoord x AX, bcoord x AY, bcoord x AZ)) by reflexivity.
  unfold interp_defined in Hdef.
  assert (Hunused : forall a, used dim a = false -> bcoord x a = 0%Z) by (intros a Hu; unfold bcoord; rewrite Hu; reflexivity).
  assert (D : dim = 1%nat \/ dim = 2%nat \/ dim = 3%nat) by lia.
  unfold herm. rewrite EB. cbn [cstep].
  destruct D as [D|[D|D]].
  - assert (UY : used dim AY = false) by (rewrite D; reflexivity).
    assert (UZ : used dim AZ = false) by (rewrite D; reflexivity).
    rewrite D. unfold interpolate1. rewrite Ebase. cbn [bind]. rewrite EX, succ_ok by lia. cbn [bind].
    rewrite Exb, Rb. cbn [bind]. rewrite read_node_ok by (apply gfor; rewrite ?UY, ?UZ; auto; lia).
    cbn [bind]. rewrite PR, UY, UZ, EB.
    rewrite (Hunused AY), (Hunused AZ) by auto. reflexivity.
  - assert (UY : used dim AY = true) by (rewrite D; reflexivity).
    assert (UZ : used dim AZ = false) by (rewrite D; reflexivity).
    pose proof (HR AY UY) as RY. pose proof (EA AY UY) as EY. cbn [vget] in RY, EY.
    rewrite D. unfold interpolate2. rewrite Ebase. cbn [bind]. rewrite EX, EY, succ_ok by lia. cbn [bind].
    rewrite succ_ok by lia. cbn [bind].
    rewrite Exb, Rb. cbn [bind]. rewrite !read_node_ok by (apply gfor; rewrite ?UY, ?UZ; auto; lia).
    cbn [bind]. rewrite !PR, UY, UZ, EB.
    rewrite (Hunused AZ) by auto. reflexivity.
  - assert (UY : used dim AY = true) by (rewrite D; reflexivity).
    assert (UZ : used dim AZ = true) by (rewrite D; reflexivity).
    pose proof (HR AY UY) as RY. pose proof (EA AY UY) as EY. cbn [vget] in RY, EY.
    pose proof (HR AZ UZ) as RZ. pose proof (EA AZ UZ) as EZ. cbn [vget] in RZ, EZ.
    rewrite D. unfold interpolate3. rewrite Ebase. cbn [bind]. rewrite EX, EY, EZ, succ_ok by lia. cbn [bind].
    rewrite succ_ok by lia. cbn [bind]. rewrite succ_ok by lia. cbn [bind].
    rewrite Exb, Rb. cbn [bind]. rewrite !read_node_ok by (apply gfor; rewrite ?UY, ?UZ; auto; lia).
    cbn [bind]. rewrite !PR, UY, UZ, EB. reflexivity.
Qed.
End Ctx.

Lemma interp_eval ov dim n bmin bmax g l x lim : built ov dim n 1 bmin bmax g -> levelset_on g l ->
  proper_box dim bmin bmax -> interp_defined ov dim -> in_lattice dim n bmin bmax x ->
  interpolate ov g x l lim =
  Ok (herm dim (cell_data g l) (bcell dim n bmin bmax x) (loc dim n bmin bmax (bcell dim n bmin bmax x) x)
        (hs n bmin bmax) (os n bmin bmax) lim).
Proof.
  intros Hb Hl Hbox Hdef Hx.
  rewrite (interp_eval_pad ov dim n 1 bmin bmax g l Hb ltac:(lia) Hl Hbox Hdef x lim Hx).
  f_equal. eapply herm_eta; eauto. intros a Hu. rewrite locp_get, Hu. ring.
Qed.
