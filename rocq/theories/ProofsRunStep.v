(** One step of the loop, with everything it leaves behind. *)
From Coq Require Import ZArith List Bool Lia Reals Lra.
From Verif Require Import Base Num ModelVec ModelGrid ModelArray ModelInterp ModelTemporal ModelRun SpecGrid SpecInterp SpecTemporal SpecRun
  ProofsBase ProofsGrid ProofsArray ProofsGridProps ProofsHermite ProofsHermiteCell ProofsHermiteExact ProofsInterp ProofsInterpProps ProofsInterpApi
  ProofsTemporal ProofsTemporalCases ProofsRun.
Import ListNotations.
Open Scope R_scope.

Section Step.
Variables (ov : ovmode) (dim : nat) (n : vec3 Z) (bmin bmax : vec3 R) (g : grid R).
Hypothesis Hb : built ov dim n 1 bmin bmax g.
Hypothesis Hbox : proper_box dim bmin bmax.
Hypothesis Hdef : interp_defined ov dim.

Lemma interior_depth i j k : interior_cell n (i, j, k) -> depth dim n (0 + 1) (i, j, k).
Proof. intros Hi a. specialize (Hi a). destruct Hb as ((_ & _ & G & _) & _). specialize (G a). destruct (used dim a); [lia|rewrite G in Hi; lia]. Qed.

Lemma node_centre i j k p : padded_cell dim n 1 (i, j, k) -> node ov g i j k = Ok p -> p = centre_pos dim n bmin bmax (i, j, k).
Proof.
  intros Hp Np. destruct (node_at_centre_pad1 _ _ _ _ _ _ _ _ _ Hb Hp) as (p' & E' & Vp). rewrite Np in E'. injection E' as <-.
  apply vec_ext. intros a. rewrite Vp, centre_coord. reflexivity.
Qed.

Lemma step_HD l s d : levelset_on g l -> moves_by ov n g s d -> within_a_cell dim n bmin bmax d ->
  exists l', sl_step ov g l s = Ok l' /\ levelset_on g l' /\ ls_mix_prev l' = ls_mix_prev l /\
    (forall i j k, padded_cell dim n 1 (i, j, k) -> ~ interior_cell n (i, j, k) ->
       aget ov g (ls_phi l') i j k = aget ov g (ls_phi l) i j k /\ aget ov g (ls_psi l') i j k = aget ov g (ls_psi l) i j k) /\
    forall i j k, interior_cell n (i, j, k) ->
      let x := back d (centre_pos dim n bmin bmax (i, j, k)) in let b := bcell dim n bmin bmax x in let Q := cell_data g (keep_prev l) in
      aget ov g (ls_phi l') i j k = Ok (HD dim (Wt None (loc dim n bmin bmax b x)) Q b (hs n bmin bmax)) /\
      exists y, aget ov g (ls_psi l') i j k = Ok y /\
        forall a, vget y a = hpsi dim Q b (loc dim n bmin bmax b x) (hs n bmin bmax) (os n bmin bmax) a.
Proof.
  intros Hl (Hv & HV) Hs. pose proof (keep_on _ _ Hl) as Hk.
  assert (FB : forall i j k p v, interior_cell n (i, j, k) -> aget ov g (lv_vel (snd s)) i j k = Ok v -> foot (fst s) v p = back d p).
  { intros i j k p v Hi Av. destruct (HV i j k Hi) as (v' & m' & A & _ & _ & E). rewrite Av in A. injection A as <-.
    unfold foot, back. pose proof (E AX). pose proof (E AY). pose proof (E AZ). cbn [vget] in *. f_equal; lra. }
  assert (FL : forall i j k p, interior_cell n (i, j, k) -> node ov g i j k = Ok p -> in_lattice dim n bmin bmax (back d p)).
  { intros i j k p Hi Np. eapply (foot_lattice ov dim n bmin bmax g Hb Hbox i j k p d 0); auto; [lia|]. apply interior_depth. exact Hi. }
  destruct (sl_general ov dim n 1 bmin bmax g (fst s) (snd s) (keep_prev l) Hb Hk Hv) as (l' & E & O & Hc).
  { intros i j k p v Hi Np Av. rewrite (FB i j k p v Hi Av).
    destruct (interp_HD ov dim n bmin bmax g (keep_prev l) Hb Hk Hbox Hdef (back d p) (FL i j k p Hi Np)) as (f & Ef & _). exists f; exact Ef. }
  exists l'. split; [exact E|]. split; [eapply only_on; [exact Hk|exact O]|].
  split; [destruct (oi_prev _ _ _ _ _ _ _ O) as (_ & _ & ->); apply keep_mix|]. split.
  { intros i j k Hp Hn. destruct (oi_ghost _ _ _ _ _ _ _ O i j k Hp Hn) as (A & B & _). split; [exact A|exact B]. }
  intros i j k Hi. cbv zeta.
  destruct (Hc i j k Hi) as (p & v & mm & f & y & Np & Av & Am & Ef & P & S & Vy). rewrite (FB i j k p v Hi Av) in Ef.
  assert (Hp : padded_cell dim n 1 (i, j, k)) by (eapply interior_padded; [apply Hb|exact Hi]).
  destruct (interp_HD ov dim n bmin bmax g (keep_prev l) Hb Hk Hbox Hdef (back d p) (FL i j k p Hi Np)) as (f' & Ef' & P1 & P2).
  rewrite Ef in Ef'. injection Ef' as <-. rewrite <- (node_centre i j k p Hp Np). split; [rewrite P, P1; reflexivity|].
  exists y. split; [exact S|]. intros a. rewrite <- P2, Vy.
  destruct (HV i j k Hi) as (v' & m' & _ & Am' & Z0 & _). rewrite Am in Am'. injection Am' as <-. rewrite !Z0. destruct a; cbn; ring.
Qed.

(** reading the data of a cell *)
Lemma read_phi l i j k v : levelset_on g l -> padded_cell dim n 1 (i, j, k) -> aget ov g (ls_phi l) i j k = Ok v -> q_phi (cell_data g (keep_prev l) (i, j, k)) = v.
Proof.
  intros Hl Hp A. pose proof (built_ok _ _ _ _ _ _ _ Hb) as F. assert (Hg : gcell g (i, j, k)) by (apply (built_gcell _ _ _ _ _ _ _ _ Hb); exact Hp).
  rewrite <- keep_phi in A. rewrite (aget_peek_c ov) in A by (auto; apply F). unfold cell_data. rewrite A. reflexivity.
Qed.
Lemma read_psi l i j k v : levelset_on g l -> padded_cell dim n 1 (i, j, k) -> aget ov g (ls_psi l) i j k = Ok v -> q_psi (cell_data g (keep_prev l) (i, j, k)) = v.
Proof.
  intros Hl Hp A. pose proof (built_ok _ _ _ _ _ _ _ Hb) as F. assert (Hg : gcell g (i, j, k)) by (apply (built_gcell _ _ _ _ _ _ _ _ Hb); exact Hp).
  rewrite <- keep_psi in A. rewrite (aget_peek_c ov) in A by (auto; apply F). unfold cell_data. rewrite A. reflexivity.
Qed.
Lemma read_mix l i j k m : levelset_on g l -> padded_cell dim n 1 (i, j, k) -> aget ov g (ls_mix_prev l) i j k = Ok m -> q_m0 (cell_data g (keep_prev l) (i, j, k)) = nth 0 m 0.
Proof.
  intros Hl Hp A. pose proof (built_ok _ _ _ _ _ _ _ Hb) as F. assert (Hg : gcell g (i, j, k)) by (apply (built_gcell _ _ _ _ _ _ _ _ Hb); exact Hp).
  rewrite <- keep_mix in A. rewrite (aget_peek_c ov) in A by (auto; apply F). unfold cell_data. rewrite A. reflexivity.
Qed.

(** base cell and local coordinates after a displacement 0 <= d < h along each used axis *)
Lemma back_loc i j k d (up : axis -> bool) : padded_cell dim n 1 (i, j, k) ->
  (forall a, used dim a = true -> let h := spacing (vget bmin a) (vget bmax a) (vget n a) in
     if up a then 0 < vget d a <= h else - h < vget d a <= 0) ->
  let x := back d (centre_pos dim n bmin bmax (i, j, k)) in
  bcell dim n bmin bmax x = (if up AX then i - 1 else i, if used dim AY && up AY then j - 1 else j, if used dim AZ && up AZ then k - 1 else k)%Z /\
  forall a, vget (loc dim n bmin bmax (bcell dim n bmin bmax x) x) a =
    if used dim a then (if up a then 1 else 0) - vget d a / spacing (vget bmin a) (vget bmax a) (vget n a) else 0.
Proof.
  intros Hp Hd x.
  assert (L : forall a, used dim a = true -> lc n bmin bmax a (vget x a) = IZR (ccoord (i, j, k) a) - vget d a / spacing (vget bmin a) (vget bmax a) (vget n a)).
  { intros a U. pose proof (h_pos ov dim n 1 bmin bmax g Hb Hbox a U) as Hh.
    replace (vget x a) with (vget (centre_pos dim n bmin bmax (i, j, k)) a - vget d a) by (unfold x; destruct a; reflexivity).
    rewrite centre_coord, U. unfold lc, lattice_coord, centre. set (h := spacing _ _ _) in *. clearbody h. field. lra. }
  assert (B : forall a, bcoord dim n bmin bmax x a = if used dim a then (if up a then ccoord (i, j, k) a - 1 else ccoord (i, j, k) a)%Z else 0%Z).
  { intros a. unfold bcoord. destruct (used dim a) eqn:U; [|reflexivity]. rewrite (L a U). apply Rfloor_unique.
    pose proof (h_pos ov dim n 1 bmin bmax g Hb Hbox a U) as Hh. specialize (Hd a U). cbv zeta in Hd. set (h := spacing _ _ _) in *. clearbody h.
    assert (ED : vget d a = vget d a / h * h) by (field; lra).
    destruct (up a).
    - assert (0 < vget d a / h <= 1).
      { split; [apply (Rmult_lt_reg_r h)|apply (Rmult_le_reg_r h)]; auto; rewrite <- ED; lra. } rewrite minus_IZR. lra.
    - assert (-1 < vget d a / h <= 0).
      { split; [apply (Rmult_lt_reg_r h)|apply (Rmult_le_reg_r h)]; auto; rewrite <- ED; lra. } lra. }
  split.
  - unfold bcell. rewrite !B. cbn [ccoord]. pose proof (Hp AY) as PY. pose proof (Hp AZ) as PZ. cbn [ccoord] in PY, PZ.
    change (used dim AX) with true. cbn match.
    destruct (used dim AY), (used dim AZ); cbn [andb]; rewrite ?PY, ?PZ; reflexivity.
  - intros a. rewrite loc_get, bcell_coord, B. destruct (used dim a) eqn:U; [|reflexivity]. rewrite (L a U).
    destruct (up a); [rewrite minus_IZR|]; lra.
Qed.
End Step.
