(** Several semi-Lagrangian steps in a row. *)
From Coq Require Import ZArith List Bool Lia Reals Lra.
From Verif Require Import Base Num ModelVec ModelGrid ModelArray ModelInterp ModelTemporal ModelRun SpecGrid SpecInterp SpecTemporal SpecRun
  ProofsBase ProofsGrid ProofsArray ProofsGridProps ProofsHermite ProofsHermiteCell ProofsHermiteExact ProofsInterp ProofsInterpProps ProofsInterpApi
  ProofsTemporal ProofsTemporalCases.
Import ListNotations.
Open Scope R_scope.

Lemma keep_on {T} {NT : Num T} (g : grid T) (l : levelset T) : levelset_on g l -> levelset_on g (keep_prev l).
Proof.
  intros [H1 H2 H3 H4 H5 H6 H7 H8 H9]. constructor; cbn [keep_prev with_phi_prev with_psi_prev ls_phi ls_psi ls_mix ls_phi_prev ls_psi_prev ls_mix_prev ls_phi_interp ls_psi_interp]; auto.
  - destruct H1, H4. split; auto.
  - destruct H2, H5. split; auto.
Qed.
Lemma keep_phi {T} {NT : Num T} ov (g : grid T) (l : levelset T) i j k : aget ov g (ls_phi_prev (keep_prev l)) i j k = aget ov g (ls_phi l) i j k.
Proof. reflexivity. Qed.
Lemma keep_psi {T} {NT : Num T} ov (g : grid T) (l : levelset T) i j k : aget ov g (ls_psi_prev (keep_prev l)) i j k = aget ov g (ls_psi l) i j k.
Proof. reflexivity. Qed.
Lemma keep_mix {T} {NT : Num T} (l : levelset T) : ls_mix_prev (keep_prev l) = ls_mix_prev l.
Proof. reflexivity. Qed.

(** what is left of the level set after a step is on the grid again *)
Lemma only_on {T} {NT : Num T} ov dim n pad (g : grid T) l l' : levelset_on g l -> only_interior ov dim n pad g l l' -> levelset_on g l'.
Proof.
  intros [H1 H2 H3 H4 H5 H6 H7 H8 H9] [(A1 & A2 & A3) B (C1 & C2 & C3 & C4) D].
  constructor; auto; rewrite ?A1, ?A2, ?A3, ?B; auto.
Qed.

(** *** At rest *)
Lemma steps_rest ov dim n bmin bmax (g : grid R) : built ov dim n 1 bmin bmax g -> proper_box dim bmin bmax -> interp_defined ov dim ->
  forall sched l, levelset_on g l -> Forall (at_rest ov n g) sched ->
  exists l', sl_steps ov g sched l = Ok l' /\ levelset_on g l' /\
    forall i j k, padded_cell dim n 1 (i, j, k) -> exists psi y,
      aget ov g (ls_phi l') i j k = aget ov g (ls_phi l) i j k /\
      aget ov g (ls_psi l) i j k = Ok psi /\ aget ov g (ls_psi l') i j k = Ok y /\
      forall a, used dim a = true -> vget y a = vget psi a.
Proof.
  intros Hb Hbox Hdef. pose proof (built_ok _ _ _ _ _ _ _ Hb) as F. pose proof (bf_ok _ _ _ _ _ _ _ F) as Hg.
  induction sched as [|s sched IH]; intros l Hl HS.
  - exists l. split; [reflexivity|]. split; [exact Hl|]. intros i j k Hp.
    assert (HC : gcell g (i, j, k)) by (apply (built_gcell _ _ _ _ _ _ _ _ Hb); auto).
    destruct (peek_ok ov g _ _ Hg (proj1 (array_on_shaped _ _ _ _ _ _ _ _ Hb) (on_psi _ _ Hl)) HC) as (v & Ev).
    rewrite <- (aget_peek_c ov) in Ev by auto. exists v, v. repeat split; auto.
  - pose proof (Forall_inv HS) as (Hv & H0). pose proof (Forall_inv_tail HS) as HS'. clear HS.
    destruct (sl_rest ov dim n bmin bmax g (fst s) (snd s) (keep_prev l) Hb (keep_on _ _ Hl) Hv Hbox Hdef H0) as (l1 & E & O & Hc).
    assert (Hl1 : levelset_on g l1) by (eapply only_on; [apply keep_on; exact Hl|exact O]).
    destruct (IH l1 Hl1 HS') as (l' & E' & Hl' & Hc'). exists l'. split; [|split; [exact Hl'|]].
    { unfold sl_steps. cbn [forM]. unfold sl_step at 1. rewrite E. cbn [bind]. exact E'. }
    intros i j k Hp. destruct (Hc' i j k Hp) as (psi1 & y & A1 & A2 & A3 & A4).
    assert (Dec : interior_cell n (i, j, k) \/ ~ interior_cell n (i, j, k)).
    { destruct (Z_le_dec 0 i), (Z_lt_dec i (vx n)), (Z_le_dec 0 j), (Z_lt_dec j (vy n)), (Z_le_dec 0 k), (Z_lt_dec k (vz n));
        try (left; intros [| |]; cbn; lia); right; intros Hi; pose proof (Hi AX); pose proof (Hi AY); pose proof (Hi AZ); cbn in *; lia. }
    destruct Dec as [Hi|Hn].
    + destruct (Hc i j k Hi) as (phi & psi & y1 & B1 & B2 & B3 & B4 & B5). rewrite keep_phi in B1. rewrite keep_psi in B2.
      exists psi, y. split; [rewrite A1, B1, B3; reflexivity|]. split; [exact B2|]. split; [exact A3|].
      intros a U. rewrite A4 by exact U. rewrite A2 in B4. injection B4 as ->. rewrite B5, U. reflexivity.
    + destruct (oi_ghost _ _ _ _ _ _ _ O i j k Hp Hn) as (B1 & B2 & _).
      exists psi1, y. split; [rewrite A1, B1; reflexivity|]. split; [rewrite <- A2, B2; reflexivity|]. split; [exact A3|]. exact A4.
Qed.

(** *** Interpolation only looks at the corners of one cell *)
Section Local.
Variables (ov : ovmode) (dim : nat) (n : vec3 Z) (bmin bmax : vec3 R) (g : grid R) (l : levelset R).
Hypothesis Hb : built ov dim n 1 bmin bmax g.
Hypothesis Hl : levelset_on g l.
Hypothesis Hbox : proper_box dim bmin bmax.
Hypothesis Hdef : interp_defined ov dim.

Lemma flat_back x D : (forall a, used dim a = false -> vget D a = 0) -> flat dim (back D x) = back D (flat dim x).
Proof.
  intros HD. unfold flat, back. cbn [vx vy vz]. pose proof (HD AY) as Y. pose proof (HD AZ) as Z. cbn [vget] in Y, Z.
  destruct (used dim AY), (used dim AZ); f_equal; rewrite ?Y, ?Z by reflexivity; lra.
Qed.

Lemma interp_shifted c x D : in_lattice dim n bmin bmax x -> (forall a, used dim a = false -> vget D a = 0) ->
  (forall b', is_corner dim (bcell dim n bmin bmax x) b' -> node_samples dim c (cell_data g l b') (back D (centre_pos dim n bmin bmax b'))) ->
  exists f, interpolate ov g x l false = Ok f /\ f_phi f = poly c (flat dim (back D x)) /\
    forall a, vget (f_psi f) a = if used dim a then dpoly a c (flat dim (back D x)) else 0.
Proof.
  intros Hx HD HQ0. destruct (interp_HD ov dim n bmin bmax g l Hb Hl Hbox Hdef x Hx) as (f & E & E1 & E2).
  exists f. split; [exact E|]. rewrite flat_back by exact HD.
  set (b := bcell dim n bmin bmax x) in *. set (p0 := back D (centre_pos dim n bmin bmax b)).
  pose proof (dim_range ov dim n 1 bmin bmax g Hb) as Hd.
  assert (HQ : forall b', is_corner dim b b' -> node_samples dim c (cell_data g l b') (lpos p0 (hs n bmin bmax) b b')).
  { intros b' Hc. specialize (HQ0 b' Hc).
    replace (lpos p0 (hs n bmin bmax) b b') with (back D (centre_pos dim n bmin bmax b')); [exact HQ0|].
    rewrite (corner_pos dim n bmin bmax b b') by (auto; apply base_unused0). unfold p0, back, lpos. cbn [vx vy vz]. f_equal; ring. }
  assert (EP : V3 (vx p0 + vx (loc dim n bmin bmax b x) * vx (hs n bmin bmax)) (if used dim AY then vy p0 + vy (loc dim n bmin bmax b x) * vy (hs n bmin bmax) else vy p0)
        (if used dim AZ then vz p0 + vz (loc dim n bmin bmax b x) * vz (hs n bmin bmax) else vz p0) = back D (flat dim x)).
  { assert (K : forall a, used dim a = true -> vget (centre_pos dim n bmin bmax b) a + vget (loc dim n bmin bmax b x) a * vget (hs n bmin bmax) a = vget x a).
    { intros a Hu. rewrite centre_coord, loc_get, Hu, hs_get. unfold lc, lattice_coord, centre.
      pose proof (h_pos ov dim n 1 bmin bmax g Hb Hbox a Hu). set (h := spacing _ _ _) in *. field. lra. }
    unfold p0, back, flat. cbn [vx vy vz]. f_equal.
    - pose proof (K AX eq_refl) as KX. cbn [vget] in KX. lra.
    - destruct (used dim AY) eqn:Hu; [pose proof (K AY Hu) as KX; cbn [vget] in KX; lra|]. unfold centre_pos. cbn [vy]. rewrite Hu. reflexivity.
    - destruct (used dim AZ) eqn:Hu; [pose proof (K AZ Hu) as KX; cbn [vget] in KX; lra|]. unfold centre_pos. cbn [vz]. rewrite Hu. reflexivity. }
  split.
  - rewrite E1, (HD_exact dim None c (cell_data g l) b p0 (hs n bmin bmax)) by (auto; discriminate). rewrite EP. cbn [flag]. unfold poly. ring.
  - intros a. rewrite E2. unfold hpsi. destruct (used dim a) eqn:Hu; [|reflexivity].
    rewrite (HD_exact dim (Some a) c (cell_data g l) b p0 (hs n bmin bmax)); auto; [|intros a' [= <-]; exact Hu].
    rewrite EP, os_get. pose proof (hs_pos ov dim n bmin bmax g Hb Hbox a Hu).
    destruct a; cbn [flag axis_eqb dpoly]; field; lra.
Qed.

(** corners of the cell around the foot of a small displacement *)
Lemma depth_padded m c : (0 <= m)%Z -> depth dim n m c -> padded_cell dim n 1 c.
Proof. intros Hm H a. specialize (H a). destruct (used dim a); [lia|exact H]. Qed.
Lemma depth_interior m c : (1 <= m)%Z -> depth dim n m c -> interior_cell n c.
Proof.
  intros Hm H a. specialize (H a). destruct Hb as ((_ & _ & G & _) & _). specialize (G a).
  destruct (used dim a); [lia|rewrite G; lia].
Qed.

Lemma corner_depth i j k p d b' m : (0 <= m)%Z -> depth dim n (m + 1) (i, j, k) -> node ov g i j k = Ok p -> within_a_cell dim n bmin bmax d ->
  is_corner dim (bcell dim n bmin bmax (back d p)) b' -> depth dim n m b'.
Proof.
  intros Hm Hdp Np Hs Hc a. specialize (Hc a). rewrite bcell_coord in Hc.
  assert (Hp : padded_cell dim n 1 (i, j, k)) by (apply (depth_padded (m + 1)); [lia|exact Hdp]).
  destruct (node_at_centre_pad1 _ _ _ _ _ _ _ _ _ Hb Hp) as (p' & E' & Vp). rewrite Np in E'. injection E' as <-.
  specialize (Hdp a). specialize (Hs a). specialize (Vp a). unfold bcoord in Hc.
  destruct (used dim a) eqn:U.
  - specialize (Hs eq_refl). cbv zeta in Hs. pose proof (h_pos ov dim n 1 bmin bmax g Hb Hbox a U) as Hh.
    assert (EL : lc n bmin bmax a (vget (back d p) a) = IZR (ccoord (i, j, k) a) - vget d a / spacing (vget bmin a) (vget bmax a) (vget n a)).
    { replace (vget (back d p) a) with (vget p a - vget d a) by (destruct a; reflexivity). rewrite Vp.
      unfold lc, lattice_coord, centre. set (h := spacing _ _ _) in *. clearbody h. field. lra. }
    rewrite EL in Hc. set (h := spacing _ _ _) in *. clearbody h.
    assert (D1 : -1 < vget d a / h <= 1).
    { split; apply (Rmult_lt_reg_r h) || apply (Rmult_le_reg_r h); auto; unfold Rdiv; rewrite Rmult_assoc, Rinv_l by lra; lra. }
    pose proof (Rfloor_spec (IZR (ccoord (i, j, k) a) - vget d a / h)) as HF. set (z := Rfloor _) in *. clearbody z.
    set (q := ccoord (i, j, k) a) in *. clearbody q.
    assert (Z1 : (q - 2 < z)%Z) by (apply lt_IZR; rewrite minus_IZR; lra).
    assert (Z2 : (z < q + 1)%Z) by (apply lt_IZR; rewrite plus_IZR; lra). lia.
  - destruct Hc as [-> | [? _]]; [reflexivity|congruence].
Qed.

Lemma foot_lattice i j k p d m : (0 <= m)%Z -> depth dim n (m + 1) (i, j, k) -> node ov g i j k = Ok p -> within_a_cell dim n bmin bmax d ->
  in_lattice dim n bmin bmax (back d p).
Proof.
  intros Hm Hdp Np Hs a U. cbv zeta.
  assert (Hp : padded_cell dim n 1 (i, j, k)) by (apply (depth_padded (m + 1)); [lia|exact Hdp]).
  destruct (node_at_centre_pad1 _ _ _ _ _ _ _ _ _ Hb Hp) as (p' & E' & Vp). rewrite Np in E'. injection E' as <-.
  replace (vget (back d p) a) with (vget p a - vget d a) by (destruct a; reflexivity). rewrite Vp, U.
  specialize (Hs a U). cbv zeta in Hs. pose proof (h_pos ov dim n 1 bmin bmax g Hb Hbox a U) as Hh. specialize (Hdp a). rewrite U in Hdp.
  pose proof (good_used _ _ _ a (proj1 Hb) U) as Hn1.
  assert (E : vget bmax a = vget bmin a + IZR (vget n a) * spacing (vget bmin a) (vget bmax a) (vget n a)).
  { unfold spacing. field. apply not_0_IZR. lia. }
  unfold centre. set (h := spacing _ _ _) in *. rewrite E. clearbody h.
  assert (I1 : 0 <= IZR (ccoord (i, j, k) a)) by (apply IZR_le; lia).
  assert (I2 : IZR (ccoord (i, j, k) a) <= IZR (vget n a) - 1) by (rewrite <- minus_IZR; apply IZR_le; lia).
  set (z := IZR (ccoord (i, j, k) a)) in *. set (w := IZR (vget n a)) in *. clearbody z w.
  assert (0 <= z * h) by (apply Rmult_le_pos; lra).
  assert (0 <= (w - 1 - z) * h) by (apply Rmult_le_pos; lra). split; lra.
Qed.
End Local.

(** *** One step of a field that is a shifted polynomial at depth m *)
Section Poly.
Variables (ov : ovmode) (dim : nat) (n : vec3 Z) (bmin bmax : vec3 R) (g : grid R) (c : nat -> nat -> nat -> R).
Hypothesis Hb : built ov dim n 1 bmin bmax g.
Hypothesis Hbox : proper_box dim bmin bmax.
Hypothesis Hdef : interp_defined ov dim.
Hypothesis Hmix : uniform_mixed dim c.

Definition mixed_of (p : vec3 R) : list R :=
  match dim with
  | 1%nat => []
  | 2%nat => [tricubic true true false c p]
  | _ => [tricubic true true false c p; tricubic false true true c p; tricubic true false true c p; tricubic true true true c p]
  end.
(** phi and psi are the polynomial moved by D in all cells of depth m; the mixed derivatives are the
    polynomial's everywhere *)
Record moved (m : Z) (D : vec3 R) (l : levelset R) : Prop := {
  mv_on : levelset_on g l;
  mv_phi : forall i j k, depth dim n m (i, j, k) -> aget ov g (ls_phi l) i j k = Ok (poly c (flat dim (back D (centre_pos dim n bmin bmax (i, j, k)))));
  mv_psi : forall i j k, depth dim n m (i, j, k) -> exists y, aget ov g (ls_psi l) i j k = Ok y /\
     forall a, used dim a = true -> vget y a = dpoly a c (flat dim (back D (centre_pos dim n bmin bmax (i, j, k))));
  mv_mix : forall i j k, padded_cell dim n 1 (i, j, k) -> aget ov g (ls_mix_prev l) i j k = Ok (mixed_of (flat dim (centre_pos dim n bmin bmax (i, j, k)))) }.

Lemma flat_flat p : flat dim (flat dim p) = flat dim p.
Proof. unfold flat. cbn [vx vy vz]. destruct (used dim AY), (used dim AZ); reflexivity. Qed.
Lemma flat_centre b : flat dim (centre_pos dim n bmin bmax b) = centre_pos dim n bmin bmax b.
Proof. unfold flat, centre_pos. cbn [vx vy vz]. destruct (used dim AY), (used dim AZ); reflexivity. Qed.

Definition used_part (d : vec3 R) : vec3 R := V3 (vx d) (if used dim AY then vy d else 0) (if used dim AZ then vz d else 0).
Lemma used_part_flat d p : flat dim (back d p) = back (used_part d) (flat dim p).
Proof. unfold flat, back, used_part. cbn [vx vy vz]. destruct (used dim AY), (used dim AZ); f_equal; lra. Qed.
Lemma used_part_0 d a : used dim a = false -> vget (used_part d) a = 0.
Proof. destruct a; cbn [used_part vget vx vy vz]; [discriminate|intros ->; reflexivity|intros ->; reflexivity]. Qed.

Lemma moved_samples m D l b : (0 <= m)%Z -> moved m D l -> depth dim n m b ->
  node_samples dim c (cell_data g (keep_prev l) b) (back (used_part D) (centre_pos dim n bmin bmax b)).
Proof.
  intros Hm [Hl M1 M2 M3] Hdp. destruct b as [[i j] k]. pose proof (M1 i j k Hdp) as H1. destruct (M2 i j k Hdp) as (y & H2 & H2').
  assert (Hp : padded_cell dim n 1 (i, j, k)) by (apply (depth_padded dim n m); auto). specialize (M3 i j k Hp).
  rewrite used_part_flat, flat_centre in H1. rewrite flat_centre in M3.
  pose proof (built_ok _ _ _ _ _ _ _ Hb) as F.
  assert (Hg : gcell g (i, j, k)) by (apply (built_gcell _ _ _ _ _ _ _ _ Hb); exact Hp).
  pose proof (keep_phi ov g l i j k) as K1. rewrite H1 in K1. pose proof (keep_psi ov g l i j k) as K2. rewrite H2 in K2.
  rewrite <- keep_mix in M3.
  rewrite (aget_peek_c ov) in K1 by (auto; apply F). rewrite (aget_peek_c ov) in K2 by (auto; apply F).
  rewrite (aget_peek_c ov) in M3 by (auto; apply F).
  unfold cell_data. rewrite K1, K2, M3. cbn [val q_phi q_psi q_m0 q_m1 q_m2 q_m3].
  split; [reflexivity|]. split; [intros a U; rewrite H2', used_part_flat, flat_centre by exact U; reflexivity|].
  set (x := centre_pos dim n bmin bmax (i, j, k)) in *.
  assert (FX : flat dim x = x) by apply flat_centre.
  destruct (Hmix x (back D x)) as (X1 & X2). rewrite used_part_flat, FX in X1. rewrite used_part_flat, FX in X2.
  clear - X1 X2 Hb. pose proof (dim_range ov dim n 1 bmin bmax g Hb) as Hd. unfold mixed_of.
  clear Hb. dim_cases Hd; cbn [nth]; (split; [intros Q|intros Q]); try lia.
  - apply X1. lia.
  - apply X1. lia.
  - destruct (X2 Q) as (A & B & C). repeat split; auto.
Qed.

Lemma vback d D x : back D (back d x) = back (vplus d D) x.
Proof. unfold back, vplus. cbn. f_equal; ring. Qed.

Lemma moved_step m D d s l : (0 <= m)%Z -> moved m D l -> moves_by ov n g s d -> within_a_cell dim n bmin bmax d ->
  exists l', sl_step ov g l s = Ok l' /\ moved (m + 1) (vplus d D) l'.
Proof.
  intros Hm HM (Hv & HV) Hs. pose proof (mv_on _ _ _ HM) as Hl. pose proof (keep_on _ _ Hl) as Hk.
  assert (FB : forall i j k p v, interior_cell n (i, j, k) -> aget ov g (lv_vel (snd s)) i j k = Ok v -> foot (fst s) v p = back d p).
  { intros i j k p v Hi Av. destruct (HV i j k Hi) as (v' & m' & A & _ & _ & E). rewrite Av in A. injection A as <-.
    unfold foot, back. pose proof (E AX). pose proof (E AY). pose proof (E AZ). cbn [vget] in *. f_equal; lra. }
  assert (ID : forall i j k, interior_cell n (i, j, k) -> depth dim n (0 + 1) (i, j, k)).
  { intros i j k Hi a. specialize (Hi a). destruct Hb as ((_ & _ & G & _) & _). specialize (G a). destruct (used dim a); [lia|rewrite G in Hi; lia]. }
  destruct (sl_general ov dim n 1 bmin bmax g (fst s) (snd s) (keep_prev l) Hb Hk Hv) as (l' & E & O & Hc).
  { intros i j k p v Hi Np Av. rewrite (FB i j k p v Hi Av).
    destruct (interp_HD ov dim n bmin bmax g (keep_prev l) Hb Hk Hbox Hdef (back d p)) as (f & Ef & _); [|exists f; exact Ef].
    eapply (foot_lattice ov dim n bmin bmax g Hb Hbox i j k p d 0); auto. lia. }
  exists l'. split; [exact E|].
  assert (V : forall i j k, depth dim n (m + 1) (i, j, k) -> exists y,
    aget ov g (ls_phi l') i j k = Ok (poly c (flat dim (back D (back d (centre_pos dim n bmin bmax (i, j, k)))))) /\
    aget ov g (ls_psi l') i j k = Ok y /\
    forall a, used dim a = true -> vget y a = dpoly a c (flat dim (back D (back d (centre_pos dim n bmin bmax (i, j, k)))))).
  { intros i j k Hdp. assert (Hi : interior_cell n (i, j, k)) by (eapply depth_interior; [exact Hb| |exact Hdp]; lia).
    destruct (Hc i j k Hi) as (p & v & mm & f & y & Np & Av & Am & Ef & P & S & Vy). rewrite (FB i j k p v Hi Av) in Ef.
    assert (Hp : padded_cell dim n 1 (i, j, k)) by (apply (depth_padded dim n (m + 1)); [lia|exact Hdp]).
    assert (EP : p = centre_pos dim n bmin bmax (i, j, k)).
    { destruct (node_at_centre_pad1 _ _ _ _ _ _ _ _ _ Hb Hp) as (p' & E' & Vp). rewrite Np in E'. injection E' as <-.
      apply vec_ext. intros a. rewrite Vp, centre_coord. reflexivity. }
    destruct (interp_shifted ov dim n bmin bmax g (keep_prev l) Hb Hk Hbox Hdef c (back d p) (used_part D)) as (f' & Ef' & P1 & P2).
    - eapply (foot_lattice ov dim n bmin bmax g Hb Hbox i j k p d m); auto.
    - intros a U. apply used_part_0. exact U.
    - intros b' Hc'. apply (moved_samples m); auto. eapply corner_depth; eauto.
    - rewrite Ef in Ef'. injection Ef' as <-.
      assert (EF : flat dim (back (used_part D) (back d p)) = flat dim (back D (back d p))).
      { rewrite !used_part_flat. f_equal. unfold used_part. cbn [vx vy vz]. destruct (used dim AY), (used dim AZ); reflexivity. }
      rewrite EF in P1, P2. rewrite <- EP. exists y. split; [rewrite <- P1; exact P|]. split; [exact S|].
      intros a U. specialize (P2 a). rewrite U in P2. rewrite <- P2, Vy.
      destruct (HV i j k Hi) as (v' & m' & _ & Am' & Z0 & _). rewrite Am in Am'. injection Am' as <-. rewrite !Z0. destruct a; cbn; ring. }
  constructor.
  - eapply only_on; [exact Hk|exact O].
  - intros i j k Hdp. destruct (V i j k Hdp) as (y & A & _). rewrite vback in A. exact A.
  - intros i j k Hdp. destruct (V i j k Hdp) as (y & _ & A & B). exists y. split; [exact A|]. intros a U. rewrite B, vback by exact U. reflexivity.
  - intros i j k Hp. destruct (oi_prev _ _ _ _ _ _ _ O) as (_ & _ & ->). rewrite keep_mix. apply (mv_mix _ _ _ HM). exact Hp.
Qed.

Lemma moved_steps : forall sched ds m D l, (0 <= m)%Z -> moved m D l -> Forall2 (moves_by ov n g) sched ds -> Forall (within_a_cell dim n bmin bmax) ds ->
  exists l', sl_steps ov g sched l = Ok l' /\ moved (m + Z.of_nat (length ds)) (vplus (vtotal ds) D) l'.
Proof.
  induction sched as [|s sched IH]; intros ds m D l Hm HM H2 HF; inversion H2; subst.
  - exists l. split; [reflexivity|]. cbn [length vtotal fold_right]. rewrite Z.add_0_r.
    replace (vplus (V3 0 0 0) D) with D; [exact HM|]. unfold vplus. destruct D. cbn. f_equal; ring.
  - rename l' into ds. pose proof (Forall_inv HF) as Hw. pose proof (Forall_inv_tail HF) as HF'.
    destruct (moved_step m D y s l Hm HM H1 Hw) as (l1 & E1 & M1).
    destruct (IH ds (m + 1)%Z _ l1 ltac:(lia) M1 H4 HF') as (l' & E' & M'). exists l'. split.
    + unfold sl_steps. cbn [forM]. rewrite E1. cbn [bind]. exact E'.
    + replace (m + Z.of_nat (length (y :: ds)))%Z with (m + 1 + Z.of_nat (length ds))%Z by (cbn [length]; lia).
      replace (vplus (vtotal (y :: ds)) D) with (vplus (vtotal ds) (vplus y D)); [exact M'|].
      unfold vplus, vtotal. cbn. f_equal; ring.
Qed.
End Poly.
