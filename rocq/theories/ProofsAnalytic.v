(** Analytical fields. *)
From Coq Require Import ZArith List Bool String Lia Reals Lra.
From Verif Require Import Base Num NumB64 ModelVec ModelGrid ModelArray ModelAnalytic SpecGrid SpecInterp SpecTemporal SpecAnalytic
  ProofsBase ProofsGrid ProofsArray ProofsGridProps ProofsInterp ProofsInterpProps ProofsInterpApi ProofsLoops ProofsTemporal.
Open Scope R_scope.

(** *** the name maps *)
Lemma index_find {E} (dflt : E) m key k : map_find (snd (map_index dflt m key)) k =
  match map_find m k with Some v => Some v | None => if String.eqb key k then Some dflt else None end.
Proof.
  unfold map_index. destruct (map_find m key) as [v|] eqn:E1; cbn [snd].
  - destruct (map_find m k) eqn:E2; auto. destruct (String.eqb_spec key k) as [->|]; congruence.
  - cbn [map_find]. destruct (String.eqb_spec key k) as [->|]; [rewrite E1; reflexivity|]. destruct (map_find m k); reflexivity.
Qed.
Lemma lookups_known {E} (dflt : E) hist : forall m k v, map_find m k = Some v -> map_find (after_lookups dflt m hist) k = Some v.
Proof.
  unfold after_lookups. induction hist as [|key hist IH]; intros m k v H; cbn [fold_left]; auto.
  apply IH. rewrite index_find, H. reflexivity.
Qed.
Lemma lookups_unknown {E} (dflt : E) hist : forall m k, (map_find m k = None \/ map_find m k = Some dflt) ->
  map_find (after_lookups dflt m hist) k = None \/ map_find (after_lookups dflt m hist) k = Some dflt.
Proof.
  unfold after_lookups. induction hist as [|key hist IH]; intros m k H; cbn [fold_left]; auto.
  apply IH. rewrite index_find. destruct H as [-> | ->]; auto. destruct (String.eqb key k); auto.
Qed.
Lemma name_known {E} (dflt : E) k v hist : fst (map_index dflt (after_lookups dflt [(k, v)] hist) k) = v.
Proof.
  unfold map_index. rewrite (lookups_known dflt hist [(k, v)] k v); [reflexivity|]. cbn. rewrite String.eqb_refl. reflexivity.
Qed.
Lemma name_unknown {E} (dflt : E) k v hist key : key <> k -> fst (map_index dflt (after_lookups dflt [(k, v)] hist) key) = dflt.
Proof.
  intros Hne. unfold map_index. destruct (lookups_unknown dflt hist [(k, v)] key) as [-> | ->]; auto.
  cbn. destruct (String.eqb_spec k key); [congruence|]. auto.
Qed.

Section Generic.
Context {T : Type} {NT : Num T} {TT : Trans T}.

(** *** CIRCLE *)
Lemma forM_phi (f : array T -> cell -> outcome (array T)) cs : forall l,
  forM cs (fun l c => a <- f (ls_phi l) c ;; Ok (with_phi l a)) l = (a <- forM cs f (ls_phi l) ;; Ok (with_phi l a)).
Proof.
  induction cs as [|c cs IH]; intros l; cbn [forM].
  - cbn [bind]. destruct l; reflexivity.
  - destruct (f (ls_phi l) c) as [a| | |]; cbn [bind]; auto. rewrite IH. cbn [with_phi ls_phi].
    destruct (forM cs f a) as [b| | |]; cbn [bind]; auto.
Qed.
Lemma forM_ext {A S} (f h : S -> A -> outcome S) cs : (forall s a, In a cs -> f s a = h s a) -> forall s, forM cs f s = forM cs h s.
Proof.
  induction cs as [|c cs IH]; intros H s; cbn [forM]; auto. rewrite H by (now left). destruct (h s c); cbn [bind]; auto.
  apply IH. intros; apply H; now right.
Qed.

(** assigning a function of another field, cell by cell, to the interior of an array *)
Lemma fill_interior {A B} ov dim n pad bmin bmax (g : grid T) (src : array A) (f : A -> B) (a : array B) :
  built ov dim n pad bmin bmax g -> array_on g src -> array_on g a ->
  exists a', forM (interior (array_cells src)) (fun s c => match c with (i, j, k) => p <- aget ov g src i j k ;; aset ov g s i j k (f p) end) a = Ok a' /\
    array_on g a' /\
    (forall i j k, interior_cell n (i, j, k) -> exists p, aget ov g src i j k = Ok p /\ aget ov g a' i j k = Ok (f p)) /\
    (forall i j k, padded_cell dim n pad (i, j, k) -> ~ interior_cell n (i, j, k) -> aget ov g a' i j k = aget ov g a i j k).
Proof.
  intros Hb Hs Ha. pose proof (built_ok _ _ _ _ _ _ _ Hb) as F. pose proof (bf_ok _ _ _ _ _ _ _ F) as Hg.
  pose proof (fun A a => array_on_shaped (A := A) _ _ _ _ _ _ _ a Hb) as K.
  assert (Ss : shaped g src) by (apply K; auto). assert (Sa : shaped g a) by (apply K; auto).
  assert (HU : forall c, interior_cell n c -> gcell g c).
  { intros c Hc. apply (built_gcell _ _ _ _ _ _ _ _ Hb). eapply interior_padded; [apply Hb|exact Hc]. }
  assert (En : array_cells src = n). { destruct Ss as [E _]. unfold array_cells. rewrite E. apply (bf_n _ _ _ _ _ _ _ F). }
  rewrite En.
  destruct (loop_cells ov g (fun c old => match peek g src c with Ok p => f p | _ => old end)
     (fun s c => match c with (i, j, k) => p <- aget ov g src i j k ;; aset ov g s i j k (f p) end) (interior n) a)
    as (a' & E & S' & _ & H1 & H2); auto.
  - apply interior_nodup.
  - intros c Hc. apply HU. apply in_interior. exact Hc.
  - intros s [[i j] k] x Hs' _ Hc Hx. apply in_interior in Hc. pose proof (HU _ Hc) as HC.
    rewrite (aget_peek_c ov) by auto. destruct (peek_ok ov g src (i, j, k)) as (p & Ep); auto. rewrite Ep. cbn [bind].
    apply aset_poke; auto.
  - exists a'. split; [exact E|]. split; [apply K; exact S'|]. split.
    + intros i j k Hc. pose proof (HU _ Hc) as HC. destruct (peek_ok ov g src (i, j, k)) as (p & Ep); auto. exists p.
      rewrite !(aget_peek_c ov) by auto. split; auto. destruct (peek_ok ov g a (i, j, k)) as (x & Ex); auto.
      rewrite (H1 (i, j, k) x); [rewrite Ep; reflexivity| apply in_interior; exact Hc | exact Ex].
    + intros i j k Hp Hn. assert (HC : gcell g (i, j, k)) by (apply (built_gcell _ _ _ _ _ _ _ _ Hb); auto).
      rewrite !(aget_peek_c ov) by auto. apply H2; auto. intros Hi. apply Hn. apply in_interior. exact Hi.
Qed.

Lemma circle_ok ov dim n pad bmin bmax (g : grid T) hist inp pos l :
  built ov dim n pad bmin bmax g -> levelset_on g l -> array_on g pos -> li_name inp = "CIRCLE"%string ->
  exists l' m', als_compute ov g (after_lookups LS_NOT_DEFINED ls_map0 hist) inp pos l = Ok (l', m') /\ only_phi ov dim n pad g l l' /\
    forall i j k, interior_cell n (i, j, k) -> exists p, aget ov g pos i j k = Ok p /\
      aget ov g (ls_phi l') i j k = Ok (vmag (vsub p (li_center inp)) - li_radius inp)%num.
Proof.
  intros Hb Hl Hp Hname.
  destruct (fill_interior ov dim n pad bmin bmax g pos (fun p => (vmag (vsub p (li_center inp)) - li_radius inp)%num) (ls_phi l) Hb Hp ltac:(apply Hl))
    as (a' & E & S & Hi & Ho).
  pose proof (name_known LS_NOT_DEFINED "CIRCLE" CIRCLE hist) as Hm. fold ls_map0 in Hm.
  unfold als_compute. rewrite Hname. destruct (map_index _ _ _) as [nm m']. cbn [fst] in Hm. subst nm.
  rewrite (forM_ext _ (fun l c => a <- (match c with (i, j, k) => p <- aget ov g pos i j k ;;
     aset ov g (ls_phi l) i j k (vmag (vsub p (li_center inp)) - li_radius inp)%num end) ;; Ok (with_phi l a))).
  2:{ intros s [[i j] k] _. unfold circle_body. destruct (aget ov g pos i j k); cbn [bind]; auto. }
  rewrite (forM_phi (fun s c => match c with (i, j, k) => p <- aget ov g pos i j k ;;
     aset ov g s i j k (vmag (vsub p (li_center inp)) - li_radius inp)%num end)).
  unfold cell. rewrite E. cbn [bind]. exists (with_phi l a'), m'. split; [reflexivity|]. split; [|exact Hi].
  split; cbn [with_phi ls_phi ls_psi ls_mix ls_phi_prev ls_psi_prev ls_mix_prev ls_phi_interp ls_psi_interp]; auto 6.
Qed.

(** *** CIRCULAR *)
Lemma circ_node_ok dim c0 c1 rest p vn : (dim = 2 \/ dim = 3)%nat -> vz vn = nofZ 0 ->
  circ_node dim (c0 :: c1 :: rest) p vn = Ok (circ_vel c0 c1 p).
Proof. intros [-> | ->] Hz; unfold circ_node, circ_vel; cbn; rewrite <- Hz; destruct vn; reflexivity. Qed.

Lemma circ_loop ov g inp pos c0 c1 rest : (g_dim g = 2 \/ g_dim g = 3)%nat -> vi_center inp = c0 :: c1 :: rest ->
  forall cs a vn, vz vn = nofZ 0 ->
  omap fst (forM cs (circ_body ov g inp pos) (a, vn)) =
  forM cs (fun s c => match c with (i, j, k) => p <- aget ov g pos i j k ;; aset ov g s i j k (circ_vel c0 c1 p) end) a.
Proof.
  intros Hd Hc. induction cs as [|[[i j] k] cs IH]; intros a vn Hz; [reflexivity|].
  cbn [forM]. unfold circ_body at 1. destruct (aget ov g pos i j k) as [p| | |]; cbn [bind omap]; auto.
  rewrite Hc, circ_node_ok by auto. cbn [bind fst snd]. destruct (aset ov g a i j k (circ_vel c0 c1 p)) as [a1| | |]; cbn [bind omap]; auto.
Qed.

Lemma grad_round dim n p d0 d1 rest : (dim = 2 \/ dim = 3)%nat ->
  forM (list_prod (axes dim) (axes dim)) circ_grad_write (mkArray n p (d0 :: d1 :: rest)) = Ok (mkArray n p (grad0 d0 :: grad1 d1 :: rest)).
Proof.
  assert (W0 : forall (m d0 d1 : mat3 T) r, vwrite (d0 :: d1 :: r) 0 m = Ok (m :: d1 :: r)).
  { intros. unfold vwrite. cbn [length Z.leb Z.compare]. replace (0 <? Z.of_nat (S (S (length r))))%Z with true by (symmetry; apply Z.ltb_lt; lia). reflexivity. }
  assert (W1 : forall (m d0 d1 : mat3 T) r, vwrite (d0 :: d1 :: r) 1 m = Ok (d0 :: m :: r)).
  { intros. unfold vwrite. cbn [length Z.leb Z.compare]. replace (1 <? Z.of_nat (S (S (length r))))%Z with true by (symmetry; apply Z.ltb_lt; lia). reflexivity. }
  assert (R0 : forall (d0 d1 : mat3 T) r, vread (d0 :: d1 :: r) 0 = Ok d0) by reflexivity.
  assert (R1 : forall (d0 d1 : mat3 T) r, vread (d0 :: d1 :: r) 1 = Ok d1) by reflexivity.
  intros [-> | ->]; cbn [axes list_prod map app forM]; unfold circ_grad_write, circ_grad_entry, araw, araw_set; cbn [fst snd axis_no a_data a_n a_pad];
    repeat first [rewrite R0 | rewrite R1 | rewrite W0 | rewrite W1 | progress cbn [bind a_data a_n a_pad]]; reflexivity.
Qed.
Lemma grad0_twice d : grad0 (grad0 d) = grad0 d.
Proof. destruct d as [[] r1 r2]; reflexivity. Qed.
Lemma grad1_twice d : grad1 (grad1 d) = grad1 d.
Proof. destruct d as [[] r1 r2]; reflexivity. Qed.
Lemma grad_loop g n p d0 d1 rest cs : (g_dim g = 2 \/ g_dim g = 3)%nat -> cs <> [] ->
  circ_gradient g cs (mkArray n p (d0 :: d1 :: rest)) = Ok (mkArray n p (grad0 d0 :: grad1 d1 :: rest)).
Proof.
  intros Hd Hne. unfold circ_gradient. revert d0 d1. induction cs as [|c cs IH]; intros d0 d1; [congruence|].
  cbn [forM]. rewrite grad_round by auto. cbn [bind]. destruct cs as [|c' cs]; [reflexivity|].
  rewrite IH by congruence. rewrite grad0_twice, grad1_twice. reflexivity.
Qed.

(** the storage slots 0 and 1 *)
Lemma lin_corner dim n pad : (dim = 2 \/ dim = 3)%nat -> lin dim n pad (corner dim pad) = 0%Z /\ lin dim n pad (corner1 dim pad) = 1%Z.
Proof.
  intros [-> | ->]; unfold corner, corner1, lin; cbn [used Nat.leb].
  - replace (- pad + pad)%Z with 0%Z by lia. split; lia.
  - replace (- pad + pad)%Z with 0%Z by lia. split; lia.
Qed.
Lemma corner_padded dim n pad : (dim = 2 \/ dim = 3)%nat -> good_sizes dim n pad -> (1 <= pad)%Z ->
  padded_cell dim n pad (corner dim pad) /\ padded_cell dim n pad (corner1 dim pad).
Proof.
  intros Hd (_ & _ & Hn & _) Hp. pose proof (Hn AX) as NX. pose proof (Hn AY) as NY. pose proof (Hn AZ) as NZ.
  destruct Hd as [-> | ->]; cbn [used Nat.leb vget] in NX, NY, NZ; split; intros []; unfold corner, corner1; cbn [used Nat.leb vget ccoord]; lia.
Qed.

Lemma circular_ok ov dim n pad bmin bmax (g : grid T) hist inp pos time lv c0 c1 rest :
  built ov dim n pad bmin bmax g -> (2 <= dim)%nat -> (1 <= pad)%Z -> velocity_on g lv -> array_on g pos ->
  vi_name inp = "CIRCULAR"%string -> vi_center inp = c0 :: c1 :: rest ->
  exists lv' m', av_compute ov true g (after_lookups VEL_NOT_DEFINED vel_map0 hist) inp pos time lv = Ok (lv', m') /\
    only_velocity ov dim n pad g lv lv' /\
    (forall i j k, interior_cell n (i, j, k) -> exists p, aget ov g pos i j k = Ok p /\ aget ov g (lv_vel lv') i j k = Ok (circ_vel c0 c1 p)) /\
    (vi_scheme inp <> "ANALYTICAL"%string -> lv_grad lv' = lv_grad lv) /\
    (vi_scheme inp = "ANALYTICAL"%string -> forall i j k, padded_cell dim n pad (i, j, k) -> exists m, aget ov g (lv_grad lv) i j k = Ok m /\
       aget ov g (lv_grad lv') i j k = Ok (if cell_eqb (i, j, k) (corner dim pad) then grad0 m else if cell_eqb (i, j, k) (corner1 dim pad) then grad1 m else m)).
Proof.
  intros Hb Hd Hpad (Hv & Hm) Hp Hname Hc. pose proof (built_ok _ _ _ _ _ _ _ Hb) as F. pose proof (bf_ok _ _ _ _ _ _ _ F) as Hg.
  pose proof (fun A a => array_on_shaped (A := A) _ _ _ _ _ _ _ a Hb) as K.
  assert (D : (dim = 2 \/ dim = 3)%nat). { destruct Hb as ((D & _) & _). lia. }
  pose proof (bf_dim _ _ _ _ _ _ _ F) as Edim. pose proof (bf_n _ _ _ _ _ _ _ F) as En. pose proof (bf_pad _ _ _ _ _ _ _ F) as Ep.
  assert (Ecells : array_cells pos = n). { unfold array_cells. rewrite <- En. apply (proj1 (K _ pos) Hp). }
  destruct (fill_interior ov dim n pad bmin bmax g pos (circ_vel c0 c1) (lv_vel lv) Hb Hp Hv) as (a' & E & S & Hi & Ho).
  rewrite <- (circ_loop ov g inp pos c0 c1 rest) with (vn := vzero) in E; [|rewrite Edim; exact D|exact Hc|reflexivity].
  destruct (forM (interior (array_cells pos)) (circ_body ov g inp pos) (lv_vel lv, vzero)) as [[a1 vn1]| | |] eqn:EL; cbn [omap bind fst] in E; try discriminate.
  injection E as ->.
  pose proof (name_known VEL_NOT_DEFINED "CIRCULAR" CIRCULAR hist) as Hnm. fold vel_map0 in Hnm.
  unfold av_compute. rewrite Hname. destruct (map_index _ _ _) as [nm m']. cbn [fst] in Hnm. subst nm.
  replace (if_macro true (Nat.eqb (g_dim g) 1)) with (Ok 0%nat). 2:{ rewrite Edim. destruct D as [-> | ->]; reflexivity. }
  cbn [bind]. rewrite EL. cbn [bind fst].
  destruct (String.eqb_spec (vi_scheme inp) "ANALYTICAL") as [Es|Es].
  - (* analytical gradient *)
    assert (Sm : shaped g (lv_grad lv)) by (apply K; exact Hm).
    assert (GC : gcell g (corner dim pad) /\ gcell g (corner1 dim pad)).
    { destruct (corner_padded dim n pad D (proj1 Hb) Hpad) as [A B]. split; apply (built_gcell _ _ _ _ _ _ _ _ Hb); assumption. }
    assert (GL : glin g (corner dim pad) = 0%Z /\ glin g (corner1 dim pad) = 1%Z).
    { unfold glin. rewrite Edim, En, Ep. apply lin_corner. exact D. }
    pose proof (glin_bounds ov g _ Hg (proj2 GC)) as Hlen. rewrite (proj2 GL) in Hlen.
    destruct (lv_grad lv) as [gn gp gd] eqn:Egr. destruct Sm as [Sm1 Sm2]. cbn [a_n a_data] in Sm1, Sm2.
    destruct gd as [|d0 [|d1 gd]]; [cbn in Sm2; lia|cbn in Sm2; lia|].
    rewrite grad_loop; [|rewrite Edim; exact D|].
    2:{ rewrite Ecells. intros H0. assert (I : In (0, 0, 0)%Z (interior n)); [|rewrite H0 in I; exact I].
        apply in_interior. destruct Hb as ((_ & _ & Hn & _) & _). intros a. specialize (Hn a).
        destruct (used dim a); destruct a; cbn in *; lia. }
    cbn [bind]. eexists. exists m'. split; [reflexivity|]. cbn [lv_vel lv_grad].
    split; [split; [exact S|]|].
    { cbn [lv_vel lv_grad]. split; [|exact Ho]. apply K. split; [exact Sm1|]. cbn [a_data]. cbn [length] in *. exact Sm2. }
    split; [exact Hi|]. split; [intros H; contradiction|]. intros _ i j k HC.
    apply (built_gcell _ _ _ _ _ _ _ _ Hb) in HC. rewrite !(aget_peek_c ov) by auto.
    assert (INJ : forall c, gcell g c -> glin g (i, j, k) = glin g c -> (i, j, k) = c).
    { intros c Gc Hlin. eapply lin_inj; [apply Hg|exact HC|exact Gc|exact Hlin]. }
    pose proof (glin_bounds ov g _ Hg HC) as HB.
    unfold peek. cbn [a_data].
    destruct (Z.eq_dec (glin g (i, j, k)) 0) as [E0|N0].
    { rewrite E0. exists d0. split; [reflexivity|]. rewrite <- (INJ (corner dim pad)); [|apply GC|rewrite E0; symmetry; apply GL].
      unfold cell_eqb. rewrite !Z.eqb_refl. reflexivity. }
    assert (NC0 : cell_eqb (i, j, k) (corner dim pad) = false).
    { destruct (cell_eqb (i, j, k) (corner dim pad)) eqn:EB; auto. exfalso. apply N0. apply cell_eqb_eq in EB. rewrite EB. apply GL. }
    rewrite NC0. destruct (Z.eq_dec (glin g (i, j, k)) 1) as [E1|N1].
    { rewrite E1. exists d1. split; [reflexivity|]. rewrite <- (INJ (corner1 dim pad)); [|apply GC|rewrite E1; symmetry; apply GL].
      unfold cell_eqb. rewrite !Z.eqb_refl. reflexivity. }
    assert (NC1 : cell_eqb (i, j, k) (corner1 dim pad) = false).
    { destruct (cell_eqb (i, j, k) (corner1 dim pad)) eqn:EB; auto. exfalso. apply N1. apply cell_eqb_eq in EB. rewrite EB. apply GL. }
    rewrite NC1. destruct (vread_inb (d0 :: d1 :: gd) (glin g (i, j, k))) as (x & Ex & _); [rewrite Sm2; lia|].
    exists x. split; [exact Ex|]. rewrite <- Ex. unfold vread.
    replace (Z.to_nat (glin g (i, j, k))) with (2 + Z.to_nat (glin g (i, j, k) - 2))%nat by lia. reflexivity.
  - cbn [bind]. eexists. exists m'. split; [reflexivity|]. cbn [lv_vel lv_grad]. split; [split; [exact S|split; [exact Hm|exact Ho]]|].
    split; [exact Hi|]. split; [auto|intros H; contradiction].
Qed.

(** interior cells never touch the two slots *)
Lemma interior_not_corner dim n pad i j k : (1 <= pad)%Z -> interior_cell n (i, j, k) ->
  cell_eqb (i, j, k) (corner dim pad) = false /\ cell_eqb (i, j, k) (corner1 dim pad) = false.
Proof.
  intros Hp Hi. pose proof (Hi AY) as Hy. cbn in Hy. unfold corner, corner1, cell_eqb.
  replace (j =? - pad)%Z with false by (symmetry; apply Z.eqb_neq; lia).
  destruct (i =? - pad)%Z, (i =? 1 - pad)%Z; auto.
Qed.

(** *** release builds, unknown names, short centres *)
Lemma circular_release ov (g : grid T) hist inp pos time lv : vi_name inp = "CIRCULAR"%string ->
  av_compute ov false g (after_lookups VEL_NOT_DEFINED vel_map0 hist) inp pos time lv = Exit 0.
Proof.
  intros Hname. pose proof (name_known VEL_NOT_DEFINED "CIRCULAR" CIRCULAR hist) as Hnm. fold vel_map0 in Hnm.
  unfold av_compute. rewrite Hname. destruct (map_index _ _ _) as [nm m']. cbn [fst] in Hnm. subst nm.
  unfold if_macro, macro_expansion. destruct (Nat.eqb (g_dim g) 1); reflexivity.
Qed.
Lemma unknown_velocity ov bt (g : grid T) hist inp pos time lv : vi_name inp <> "CIRCULAR"%string ->
  exists m', av_compute ov bt g (after_lookups VEL_NOT_DEFINED vel_map0 hist) inp pos time lv = Ok (lv, m').
Proof.
  intros Hname. pose proof (name_unknown VEL_NOT_DEFINED "CIRCULAR" CIRCULAR hist _ Hname) as Hnm. fold vel_map0 in Hnm.
  unfold av_compute. destruct (map_index _ _ _) as [nm m']. cbn [fst] in Hnm. subst nm. exists m'. reflexivity.
Qed.
Lemma unknown_levelset ov (g : grid T) hist inp pos l : li_name inp <> "CIRCLE"%string ->
  exists m', als_compute ov g (after_lookups LS_NOT_DEFINED ls_map0 hist) inp pos l = Ok (l, m').
Proof.
  intros Hname. pose proof (name_unknown LS_NOT_DEFINED "CIRCLE" CIRCLE hist _ Hname) as Hnm. fold ls_map0 in Hnm.
  unfold als_compute. destruct (map_index _ _ _) as [nm m']. cbn [fst] in Hnm. subst nm. exists m'. reflexivity.
Qed.
End Generic.
