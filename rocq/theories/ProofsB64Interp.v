(** Grids, interpolation and time steps in binary64 arithmetic. *)
From Coq Require Import ZArith List Bool Lia Reals Lra.
From Flocq Require Import Core BinarySingleNaN.
From Verif Require Import Base Num NumB64 ModelVec ModelGrid ModelArray ModelInterp ModelTemporal SpecGrid SpecInterp SpecTemporal SpecB64
  ProofsBase ProofsGrid ProofsArray ProofsGridProps ProofsInterp ProofsLoops ProofsTemporal ProofsB64 ProofsB64Ops ProofsB64Grid.

(** ** any scalar type: interpolation is defined when the base node is in range *)
Section Gen.
Context {T : Type} {NT : Num T}.
Variables (ov : ovmode) (dim : nat) (n : vec3 Z) (pad : Z) (bmin bmax : vec3 T) (g : grid T) (l : levelset T).
Hypothesis Hb : built ov dim n pad bmin bmax g.
Hypothesis Hpad : (1 <= pad)%Z.
Hypothesis Hl : levelset_on g l.
Let F := built_ok _ _ _ _ _ _ _ Hb.
Let Hok : okgrid ov g := bf_ok _ _ _ _ _ _ _ F.

Lemma gen_read {A} (a : array A) i j k : array_on g a -> gcell_for ov g (i, j, k) ->
  exists x, aget ov g a i j k = Ok x /\ In x (a_data a).
Proof.
  intros Ha Hc. apply (array_on_shaped _ _ _ _ _ _ _ a Hb) in Ha.
  rewrite (aget_peek ov) by auto. rewrite <- (peek_project g).
  pose proof (project_padded ov _ _ _ _ Hc) as Hp.
  destruct (peek_ok ov g a _ Hok Ha Hp) as (x & E). exists x. split; [exact E|]. eapply vread_In. exact E.
Qed.

Lemma gen_read_node i j k : gcell_for ov g (i, j, k) -> exists q, read_node ov g l (V3 i j k) = Ok q.
Proof.
  intros Hc. unfold read_node, aget_v. cbn [vx vy vz].
  destruct (gen_read _ i j k (on_phi_prev _ _ Hl) Hc) as (p & -> & _). destruct (gen_read _ i j k (on_psi_prev _ _ Hl) Hc) as (s & -> & _).
  destruct (gen_read _ i j k (on_mix_prev _ _ Hl) Hc) as (m & E & Hm).
  pose proof (on_mix_len _ _ Hl) as HL. rewrite Forall_forall in HL. specialize (HL m Hm). cbn [bind].
  rewrite (bf_dim _ _ _ _ _ _ _ F) in *. assert (Hd : (1 <= dim <= 3)%nat) by apply Hb. clear F Hok.
  dim_cases Hd; cbn [mixed_count] in HL.
  - eexists; reflexivity.
  - destruct m as [|m0 [|]]; try discriminate. rewrite E. eexists; reflexivity.
  - destruct m as [|m0 [|m1 [|m2 [|m3 [|]]]]]; try discriminate. rewrite E. eexists; reflexivity.
Qed.

Lemma gen_for i j k : (-1 <= i <= vx n)%Z -> (if used dim AY then (-1 <= j <= vy n)%Z else ov = Wrap \/ j = 0%Z) ->
  (if used dim AZ then (-1 <= k <= vz n)%Z else ov = Wrap \/ k = 0%Z) -> gcell_for ov g (i, j, k).
Proof.
  intros Hi Hj Hk a. rewrite (bf_dim _ _ _ _ _ _ _ F), (bf_n _ _ _ _ _ _ _ F), (bf_pad _ _ _ _ _ _ _ F).
  destruct a; cbn [ccoord vget].
  - cbn [used]. lia.
  - destruct (used dim AY); [lia|]. destruct Hj as [-> | ->]; [exact I|destruct ov; auto].
  - destruct (used dim AZ); [lia|]. destruct Hk as [-> | ->]; [exact I|destruct ov; auto].
Qed.

Lemma gen_interp x b lim : interp_defined ov dim -> baseNodeId g x = Ok b ->
  (forall a, used dim a = true -> (-1 <= vget b a <= vget n a - 1)%Z) -> exists f, interpolate ov g x l lim = Ok f.
Proof.
  intros Hdef Eb Hr.
  destruct (base_node_lookup_defined ov dim n pad bmin bmax g x b Hb Hdef Eb) as (xb & Exb).
  { intros a Hu. specialize (Hr a Hu). lia. }
  assert (HM : forall a, (vget n a <= INT_MAX)%Z) by (intros a; pose proof (good_int _ _ _ a (proj1 Hb)); lia).
  assert (S : forall z, (-1 <= z <= INT_MAX - 1)%Z -> succ_id ov z = Ok (z + 1)%Z).
  { intros z Hz. unfold succ_id, iadd. rewrite chk_ok; auto. unfold INT_MIN. lia. }
  pose proof (Hr AX eq_refl) as RX. pose proof (HM AX) as MX. cbn [vget] in RX, MX.
  assert (Rb : exists q, read_node ov g l b = Ok q).
  { destruct b as [bx by_ bz]. apply gen_read_node. cbn [vx vy vz] in *. apply gen_for; [lia| |].
    - destruct (used dim AY) eqn:E; [specialize (Hr AY E); cbn [vget vy] in Hr; lia|]. destruct Hdef as [H| H]; [auto|rewrite H in E; discriminate].
    - destruct (used dim AZ) eqn:E; [specialize (Hr AZ E); cbn [vget vz] in Hr; lia|]. destruct Hdef as [H| H]; [auto|rewrite H in E; discriminate]. }
  destruct Rb as (qb & Rb).
  unfold interpolate. rewrite (bf_dim _ _ _ _ _ _ _ F).
  assert (Hd : (1 <= dim <= 3)%nat) by apply Hb.
  assert (D : dim = 1%nat \/ dim = 2%nat \/ dim = 3%nat) by lia.
  destruct D as [D|[D|D]].
  - assert (UY : used dim AY = false) by (rewrite D; reflexivity). assert (UZ : used dim AZ = false) by (rewrite D; reflexivity).
    rewrite D. unfold interpolate1. rewrite Eb. cbn [bind]. rewrite S by lia. cbn [bind]. rewrite Exb, Rb. cbn [bind].
    destruct (gen_read_node (vx b + 1) 0 0) as (q & ->); [apply gen_for; rewrite ?UY, ?UZ; auto; lia|]. eexists; reflexivity.
  - assert (UY : used dim AY = true) by (rewrite D; reflexivity). assert (UZ : used dim AZ = false) by (rewrite D; reflexivity).
    pose proof (Hr AY UY) as RY. pose proof (HM AY) as MY. cbn [vget] in RY, MY.
    rewrite D. unfold interpolate2. rewrite Eb. cbn [bind]. rewrite S by lia. cbn [bind]. rewrite S by lia. cbn [bind]. rewrite Exb, Rb. cbn [bind].
    destruct (gen_read_node (vx b + 1) (vy b) 0) as (q1 & ->); [apply gen_for; rewrite ?UY, ?UZ; auto; lia|].
    destruct (gen_read_node (vx b) (vy b + 1) 0) as (q2 & ->); [apply gen_for; rewrite ?UY, ?UZ; auto; lia|].
    destruct (gen_read_node (vx b + 1) (vy b + 1) 0) as (q3 & ->); [apply gen_for; rewrite ?UY, ?UZ; auto; lia|]. eexists; reflexivity.
  - assert (UY : used dim AY = true) by (rewrite D; reflexivity). assert (UZ : used dim AZ = true) by (rewrite D; reflexivity).
    pose proof (Hr AY UY) as RY. pose proof (HM AY) as MY. cbn [vget] in RY, MY. pose proof (Hr AZ UZ) as RZ. pose proof (HM AZ) as MZ. cbn [vget] in RZ, MZ.
    rewrite D. unfold interpolate3. rewrite Eb. cbn [bind]. rewrite S by lia. cbn [bind]. rewrite S by lia. cbn [bind]. rewrite S by lia. cbn [bind]. rewrite Exb, Rb. cbn [bind].
    destruct (gen_read_node (vx b + 1) (vy b) (vz b)) as (q1 & ->); [apply gen_for; rewrite ?UY, ?UZ; auto; lia|].
    destruct (gen_read_node (vx b) (vy b + 1) (vz b)) as (q2 & ->); [apply gen_for; rewrite ?UY, ?UZ; auto; lia|].
    destruct (gen_read_node (vx b) (vy b) (vz b + 1)) as (q3 & ->); [apply gen_for; rewrite ?UY, ?UZ; auto; lia|].
    destruct (gen_read_node (vx b + 1) (vy b + 1) (vz b)) as (q4 & ->); [apply gen_for; rewrite ?UY, ?UZ; auto; lia|].
    destruct (gen_read_node (vx b) (vy b + 1) (vz b + 1)) as (q5 & ->); [apply gen_for; rewrite ?UY, ?UZ; auto; lia|].
    destruct (gen_read_node (vx b + 1) (vy b) (vz b + 1)) as (q6 & ->); [apply gen_for; rewrite ?UY, ?UZ; auto; lia|].
    destruct (gen_read_node (vx b + 1) (vy b + 1) (vz b + 1)) as (q7 & ->); [apply gen_for; rewrite ?UY, ?UZ; auto; lia|]. eexists; reflexivity.
Qed.

(** the base node, axis by axis *)
Lemma gen_base x : (forall a, used dim a = true ->
    (INT_MIN <= nfloor ((vget x a - vget bmin a) * (nofZ 1 / ((vget bmax a - vget bmin a) / nofZ (vget n a))) - half)%num <= INT_MAX)%Z) ->
  exists b, baseNodeId g x = Ok b /\ forall a, used dim a = true ->
    vget b a = nfloor ((vget x a - vget bmin a) * (nofZ 1 / ((vget bmax a - vget bmin a) / nofZ (vget n a))) - half)%num.
Proof.
  intros H.
  assert (E : forall a, used dim a = true -> ((vget x a - vget (g_box_min g) a) * vget (g_odx g) a
     = (vget x a - vget bmin a) * (nofZ 1 / ((vget bmax a - vget bmin a) / nofZ (vget n a))))%num).
  { intros a Hu. rewrite (bf_odx _ _ _ _ _ _ _ F a Hu), (bf_min _ _ _ _ _ _ _ F), (bf_dx _ _ _ _ _ _ _ F).
    destruct a; reflexivity. }
  assert (Hd : (1 <= dim <= 3)%nat) by apply Hb.
  assert (FI : forall z, (INT_MIN <= z <= INT_MAX)%Z -> float_to_int z = Ok z).
  { intros z Hz. unfold float_to_int. destruct (Z.leb_spec INT_MIN z); [|lia]. destruct (Z.leb_spec z INT_MAX); [|lia]. reflexivity. }
  unfold baseNodeId. rewrite (bf_dim _ _ _ _ _ _ _ F).
  assert (D : dim = 1%nat \/ dim = 2%nat \/ dim = 3%nat) by lia.
  assert (UX : used dim AX = true) by reflexivity.
  destruct D as [D|[D|D]].
  - rewrite D. cbn [axes forM]. rewrite E by auto. rewrite FI by (apply (H AX); auto). cbn [bind]. eexists. split; [reflexivity|].
    intros [| |]; cbn [used Nat.leb]; try discriminate. reflexivity.
  - assert (UY : used dim AY = true) by (rewrite D; reflexivity).
    rewrite D. cbn [axes forM]. rewrite !E by auto. rewrite FI by (apply (H AX); auto). cbn [bind]. rewrite FI by (apply (H AY); auto). cbn [bind]. eexists. split; [reflexivity|].
    intros [| |]; cbn [used Nat.leb]; try discriminate; reflexivity.
  - assert (UY : used dim AY = true) by (rewrite D; reflexivity). assert (UZ : used dim AZ = true) by (rewrite D; reflexivity).
    rewrite D. cbn [axes forM]. rewrite !E by auto. rewrite FI by (apply (H AX); auto). cbn [bind]. rewrite FI by (apply (H AY); auto). cbn [bind].
    rewrite FI by (apply (H AZ); auto). cbn [bind]. eexists. split; [reflexivity|].
    intros [| |]; cbn [used Nat.leb]; try discriminate; reflexivity.
Qed.

Lemma gen_node i j k : padded_cell dim n pad (i, j, k) -> node ov g i j k = Ok (pos_at dim n pad bmin bmax (i, j, k)).
Proof.
  intros Hc. unfold node. rewrite (index_built _ _ _ _ _ _ _ _ _ _ Hb Hc). cbn [bind].
  pose proof (proj2 (built_gcell _ _ _ _ _ _ _ _ Hb) Hc) as Hg.
  pose proof (bf_pos _ _ _ _ _ _ _ F _ Hg) as E. unfold glin in E.
  rewrite (bf_dim _ _ _ _ _ _ _ F), (bf_n _ _ _ _ _ _ _ F), (bf_pad _ _ _ _ _ _ _ F) in E. exact E.
Qed.
End Gen.

(** ** double *)
Open Scope R_scope.

Lemma reach_ok (lo hi : b64) : Rabs (B2R lo) <= reach lo hi /\ Rabs (B2R hi) <= reach lo hi.
Proof. unfold reach, real. split; [apply Rmax_l|apply Rmax_r]. Qed.
Lemma resolved_u A D : A <= bpow radix2 43 * D -> 1024 * u * A <= D.
Proof.
  intros H. assert (E : 1024 * u * bpow radix2 43 = 1) by (unfold u; change 1024 with (bpow radix2 10); rewrite <- !bpow_plus; reflexivity).
  pose proof u_pos. assert (1024 * u * A <= 1024 * u * (bpow radix2 43 * D)) by (apply Rmult_le_compat_l; lra).
  rewrite <- Rmult_assoc, E, Rmult_1_l in H1. exact H1.
Qed.

Section Box.
Variables (ov : ovmode) (dim : nat) (n : vec3 Z) (pad : Z) (bmin bmax : vec3 b64) (g : grid b64).
Hypothesis Hb : built ov dim n pad bmin bmax g.
Hypothesis Hs : sane_box dim n bmin bmax.

Lemma n64 a : used dim a = true -> (1 <= vget n a < 2 ^ 31)%Z.
Proof.
  intros Hu. pose proof (good_used _ _ _ a (proj1 Hb) Hu). pose proof (good_int _ _ _ a (proj1 Hb)) as G.
  assert (INT_MAX = 2147483647%Z) by reflexivity. change (2 ^ 31)%Z with 2147483648%Z. lia.
Qed.

Lemma base64 x : near_box dim n bmin bmax x -> exists b, baseNodeId g x = Ok b /\ forall a, used dim a = true -> (-1 <= vget b a <= vget n a - 1)%Z.
Proof.
  intros Hx.
  assert (R : forall a, used dim a = true -> (-1 <= b64_floor (lat64 (vget bmin a) (vget bmax a) (vget n a) (vget x a)) <= vget n a - 1)%Z).
  { intros a Hu. destruct (Hs a Hu) as (F1' & F2' & LU & HA & HD). destruct (Hx a Hu) as (Fx & Bx).
    apply (base64_box _ _ _ (reach (vget bmin a) (vget bmax a))); auto using n64.
    destruct (reach_ok (vget bmin a) (vget bmax a)). auto. }
  destruct (gen_base ov dim n pad bmin bmax g Hb x) as (b & Eb & Vb).
  - intros a Hu. specialize (R a Hu). pose proof (n64 a Hu). unfold INT_MIN, INT_MAX. change (2 ^ 31)%Z with 2147483648%Z in *.
    change (nfloor _) with (b64_floor (lat64 (vget bmin a) (vget bmax a) (vget n a) (vget x a))). lia.
  - exists b. split; [exact Eb|]. intros a Hu. rewrite (Vb a Hu). apply (R a Hu).
Qed.
End Box.

Lemma interp64 ov dim n pad bmin bmax g l x lim : built ov dim n pad bmin bmax g -> (1 <= pad)%Z -> sane_box dim n bmin bmax -> levelset_on g l ->
  interp_defined ov dim -> near_box dim n bmin bmax x -> exists f, interpolate ov g x l lim = Ok f.
Proof.
  intros Hb Hp Hs Hl Hd Hx. destruct (base64 ov dim n pad bmin bmax g Hb Hs x Hx) as (b & Eb & Rb).
  eapply gen_interp; eauto.
Qed.

Lemma pos64 dim n (bmin bmax : vec3 b64) c a : (1 <= dim <= 3)%nat -> used dim a = true ->
  vget (pos_at dim n 1 bmin bmax c) a = node64 (vget bmin a) (vget bmax a) (vget n a) (ccoord c a).
Proof.
  intros Hd Hu. destruct c as [[i j] k]. unfold pos_at, node64, dx64.
  dim_cases Hd; destruct a; cbn in Hu; try discriminate; cbn [gen_elem gen_min gen_dx axes fold_left g_dim g_n mask vget vset vx vy vz ccoord]; rewrite ?Z.mul_1_r; reflexivity.
Qed.

Section Nodes.
Variables (ov : ovmode) (dim : nat) (n : vec3 Z) (bmin bmax : vec3 b64) (g : grid b64).
Hypothesis Hb : built ov dim n 1 bmin bmax g.
Hypothesis Hs : sane_box dim n bmin bmax.

Lemma position64 i j k : padded_cell dim n 1 (i, j, k) -> exists p, node ov g i j k = Ok p /\
  forall a, used dim a = true -> is_finite (vget p a) = true /\
    Rabs (real (vget p a) - centre64 (vget bmin a) (vget bmax a) (vget n a) (ccoord (i, j, k) a)) <= bpow radix2 (-47) * reach (vget bmin a) (vget bmax a).
Proof.
  intros Hc. exists (pos_at dim n 1 bmin bmax (i, j, k)). split; [apply (gen_node _ _ _ _ _ _ _ Hb); exact Hc|].
  intros a Hu. rewrite pos64 by (auto; apply Hb). destruct (Hs a Hu) as (F1' & F2' & LU & HA & HD).
  specialize (Hc a). rewrite Hu in Hc.
  destruct (node64_ok (vget bmin a) (vget bmax a) (vget n a) (reach (vget bmin a) (vget bmax a)) F1' F2' (n64 _ _ _ _ _ _ _ Hb a Hu) LU) with (i := ccoord (i, j, k) a) as (Fx & Ex); auto.
  - destruct (reach_ok (vget bmin a) (vget bmax a)). auto.
  - lia.
  - split; [exact Fx|]. replace (bpow radix2 (-47)) with (64 * u) by (unfold u; change 64 with (bpow radix2 6); rewrite <- bpow_plus; reflexivity).
    exact Ex.
Qed.

Lemma own_base64 i j k : interior_cell n (i, j, k) -> resolved dim n bmin bmax -> exists p b, node ov g i j k = Ok p /\ baseNodeId g p = Ok b /\
  forall a, used dim a = true -> vget b a = ccoord (i, j, k) a \/ vget b a = (ccoord (i, j, k) a - 1)%Z.
Proof.
  intros Hc Hr. exists (pos_at dim n 1 bmin bmax (i, j, k)).
  assert (Hp : padded_cell dim n 1 (i, j, k)) by (eapply interior_padded; [apply Hb|exact Hc]).
  assert (Hd : (1 <= dim <= 3)%nat) by apply Hb.
  assert (R : forall a, used dim a = true ->
     let q := b64_floor (lat64 (vget bmin a) (vget bmax a) (vget n a) (vget (pos_at dim n 1 bmin bmax (i, j, k)) a)) in
     q = ccoord (i, j, k) a \/ q = (ccoord (i, j, k) a - 1)%Z).
  { intros a Hu. rewrite pos64 by auto. destruct (Hs a Hu) as (F1' & F2' & LU & HA & HD). specialize (Hc a).
    apply (base64_node _ _ _ (reach (vget bmin a) (vget bmax a))); auto.
    - apply (n64 _ _ _ _ _ _ _ Hb a Hu).
    - destruct (reach_ok (vget bmin a) (vget bmax a)). auto.
    - lia.
    - pose proof (resolved_u _ _ (Hr a Hu)) as E. change ((B2R (vget bmax a) - B2R (vget bmin a)) / IZR (vget n a)) with (spacing64 (vget bmin a) (vget bmax a) (vget n a)).
      pose proof u_pos. assert (0 <= reach (vget bmin a) (vget bmax a)) by (destruct (reach_ok (vget bmin a) (vget bmax a)) as (? & _); pose proof (Rabs_pos (B2R (vget bmin a))); lra).
      assert (0 <= u * reach (vget bmin a) (vget bmax a)) by (apply Rmult_le_pos; lra). lra. }
  destruct (gen_base ov dim n 1 bmin bmax g Hb (pos_at dim n 1 bmin bmax (i, j, k))) as (b & Eb & Vb).
  - intros a Hu. specialize (R a Hu). cbv zeta in R. pose proof (n64 _ _ _ _ _ _ _ Hb a Hu). specialize (Hc a). unfold INT_MIN, INT_MAX. change (2 ^ 31)%Z with 2147483648%Z in *.
    change (nfloor _) with (b64_floor (lat64 (vget bmin a) (vget bmax a) (vget n a) (vget (pos_at dim n 1 bmin bmax (i, j, k)) a))). lia.
  - exists b. split; [apply (gen_node _ _ _ _ _ _ _ Hb); exact Hp|]. split; [exact Eb|]. intros a Hu. rewrite (Vb a Hu). apply (R a Hu).
Qed.

Lemma step64 dt lv l : interp_defined ov dim -> resolved dim n bmin bmax -> levelset_on g l -> velocity_on g lv ->
  (forall i j k v, interior_cell n (i, j, k) -> aget ov g (lv_vel lv) i j k = Ok v -> slow dim n bmin bmax dt v) ->
  exists l', sl_compute ov g dt lv l = Ok l' /\ only_interior ov dim n 1 g l l'.
Proof.
  intros Hdef Hr Hl Hv Hslow.
  assert (K : forall i j k x v, interior_cell n (i, j, k) -> node ov g i j k = Ok x -> aget ov g (lv_vel lv) i j k = Ok v ->
    exists f, interpolate ov g (vsub x (vscale v dt)) l false = Ok f).
  { intros i j k x v Hc Ex Ev. apply (interp64 ov dim n 1 bmin bmax); auto; [lia|].
    assert (Hp : padded_cell dim n 1 (i, j, k)) by (eapply interior_padded; [apply Hb|exact Hc]).
    rewrite (gen_node _ _ _ _ _ _ _ Hb _ _ _ Hp) in Ex. assert (Ex' : x = pos_at dim n 1 bmin bmax (i, j, k)) by congruence. rewrite Ex'. clear Ex Ex' x.
    specialize (Hslow i j k v Hc Ev). intros a Hu h.
    assert (E : vget (vsub (pos_at dim n 1 bmin bmax (i, j, k)) (vscale v dt)) a =
      (node64 (vget bmin a) (vget bmax a) (vget n a) (ccoord (i, j, k) a) - vget v a * dt)%num).
    { rewrite <- (pos64 dim n bmin bmax (i, j, k) a) by (auto; apply Hb). destruct a; reflexivity. }
    rewrite E. destruct (Hs a Hu) as (F1' & F2' & LU & HA & HD). destruct (Hslow a Hu) as (S1 & S2 & S3). specialize (Hc a).
    apply (foot64_ok (vget bmin a) (vget bmax a) (vget n a) (reach (vget bmin a) (vget bmax a))); auto.
    - apply (n64 _ _ _ _ _ _ _ Hb a Hu).
    - destruct (reach_ok (vget bmin a) (vget bmax a)). auto.
    - lia.
    - apply (resolved_u _ _ (Hr a Hu)). }
  set (val := fun c : cell => match c with (i, j, k) =>
    match node ov g i j k with Ok x => match aget ov g (lv_vel lv) i j k with Ok v =>
      match interpolate ov g (vsub x (vscale v dt)) l false with Ok f => f | _ => mkFields (nofZ 0) vzero end | _ => mkFields (nofZ 0) vzero end | _ => mkFields (nofZ 0) vzero end end).
  destruct (sl_done_api ov dim n 1 bmin bmax g dt lv l val Hb Hl Hv) as (l' & E & O & _).
  - intros i j k x v Hc Ex Ev. unfold val. rewrite Ex, Ev. destruct (K i j k x v Hc Ex Ev) as (f & ->). reflexivity.
  - eauto.
Qed.
End Nodes.
