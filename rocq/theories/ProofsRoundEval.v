(** The result of interpolation for any scalar type, in terms of the base node and the stored data. *)
From Coq Require Import ZArith List Bool Lia.
From Verif Require Import Base Num ModelVec ModelGrid ModelArray ModelInterp SpecGrid SpecInterp
  ProofsBase ProofsGrid ProofsArray ProofsGridProps ProofsHermiteCell ProofsInterp ProofsB64Interp.
Open Scope Z_scope.

Section Gen.
Context {T : Type} {NT : Num T}.
Definition hermT (dim : nat) (Q : cell -> nodal T) (b : cell) (e h o : vec3 T) (lim : bool) : fields T :=
  match dim with
  | 1%nat => hermite1 (Q b) (Q (cstep b AX)) (vx e) (vx h) (vx o) lim
  | 2%nat => hermite2 (Q b) (Q (cstep b AX)) (Q (cstep b AY)) (Q (cstep (cstep b AX) AY)) e h o lim
  | _ => hermite3 (Q b) (Q (cstep b AX)) (Q (cstep b AY)) (Q (cstep b AZ)) (Q (cstep (cstep b AX) AY))
    (Q (cstep (cstep b AY) AZ)) (Q (cstep (cstep b AX) AZ)) (Q (cstep (cstep (cstep b AX) AY) AZ)) e h o lim
  end.

Variables (ov : ovmode) (dim : nat) (n : vec3 Z) (bmin bmax : vec3 T) (g : grid T) (l : levelset T).
Hypothesis Hb : built ov dim n 1 bmin bmax g.
Hypothesis Hl : levelset_on g l.
Hypothesis Hdef : interp_defined ov dim.
Let F := built_ok _ _ _ _ _ _ _ Hb.
Let Hok : okgrid ov g := bf_ok _ _ _ _ _ _ _ F.

Definition c3 (c : cell) : vec3 Z := match c with (i, j, k) => V3 i j k end.
Definition dflt : nodal T := mkNodal (nofZ 0) vzero (nofZ 0) (nofZ 0) (nofZ 0) (nofZ 0).
Definition dataT (c : cell) : nodal T := val dflt (read_node ov g l (c3 c)).
Definition bcellT (b : vec3 Z) : cell := project dim (vx b, vy b, vz b).

Lemma aget_proj {A} (a : array A) i j k : gcell_for ov g (i, j, k) ->
  aget_v ov g a (V3 i j k) = aget_v ov g a (c3 (project dim (i, j, k))).
Proof.
  intros Hc. unfold aget_v. cbn [vx vy vz]. rewrite (aget_peek ov) by auto.
  pose proof (project_padded ov _ _ _ _ Hc) as Hp. rewrite <- (peek_project g).
  rewrite (bf_dim _ _ _ _ _ _ _ F) in *. unfold project in *. cbn [c3 vx vy vz].
  rewrite (aget_peek_c ov); auto. unfold gcell. rewrite (bf_dim _ _ _ _ _ _ _ F). exact Hp.
Qed.
Lemma read_proj i j k : gcell_for ov g (i, j, k) -> read_node ov g l (V3 i j k) = Ok (dataT (project dim (i, j, k))).
Proof.
  intros Hc. unfold dataT.
  assert (E : read_node ov g l (V3 i j k) = read_node ov g l (c3 (project dim (i, j, k)))).
  { unfold read_node. rewrite !(aget_proj _ i j k Hc). reflexivity. }
  destruct (gen_read_node ov dim n 1 bmin bmax g l Hb Hl i j k Hc) as (q & Eq). rewrite <- E, Eq. reflexivity.
Qed.

Lemma eval_gen x b lim : baseNodeId g x = Ok b -> (forall a, used dim a = true -> -1 <= vget b a <= vget n a - 1) ->
  exists xb, node ov g (fst (fst (bcellT b))) (snd (fst (bcellT b))) (snd (bcellT b)) = Ok xb /\
    interpolate ov g x l lim = Ok (hermT dim dataT (bcellT b) (vmul (vsub x xb) (g_odx g)) (g_dx g) (g_odx g) lim).
Proof.
  intros Eb Hr.
  assert (Hc : gcell_for ov g (vx b, vy b, vz b)).
  { pose proof (Hr AX eq_refl). cbn [vget] in *. apply (gen_for ov dim n 1 bmin bmax g Hb); [lia|lia| |].
    - destruct (used dim AY) eqn:E; [specialize (Hr AY E); cbn [vget] in Hr; lia|]. destruct Hdef as [H'| H']; [auto|rewrite H' in E; discriminate].
    - destruct (used dim AZ) eqn:E; [specialize (Hr AZ E); cbn [vget] in Hr; lia|]. destruct Hdef as [H'| H']; [auto|rewrite H' in E; discriminate]. }
  destruct (base_node_lookup_defined ov dim n 1 bmin bmax g x b Hb Hdef Eb) as (xb & Exb).
  { intros a Hu. specialize (Hr a Hu). lia. }
  exists xb. split.
  { pose proof (project_padded ov _ _ _ _ Hc) as Hp. rewrite (bf_dim _ _ _ _ _ _ _ F), (bf_n _ _ _ _ _ _ _ F), (bf_pad _ _ _ _ _ _ _ F) in Hp.
    fold (bcellT b) in Hp. rewrite <- Exb. unfold node_v, node.
    rewrite (index_ok ov g (vx b) (vy b) (vz b)) by (auto; apply Hok).
    rewrite (surjective_pairing (bcellT b)) in Hp. rewrite (surjective_pairing (fst (bcellT b))) in Hp.
    rewrite (index_built _ _ _ _ _ _ _ _ _ _ Hb Hp).
    rewrite <- !surjective_pairing. unfold glin. rewrite (bf_dim _ _ _ _ _ _ _ F), (bf_n _ _ _ _ _ _ _ F), (bf_pad _ _ _ _ _ _ _ F).
    rewrite <- (lin_project _ _ _ (vx b, vy b, vz b)). reflexivity. }
  assert (HM : forall a, (vget n a <= INT_MAX)%Z) by (intros a; pose proof (good_int _ _ _ a (proj1 Hb)); lia).
  assert (S : forall z, (-1 <= z <= INT_MAX - 1)%Z -> succ_id ov z = Ok (z + 1)%Z).
  { intros z Hz. unfold succ_id, iadd. rewrite chk_ok; auto. unfold INT_MIN. lia. }
  pose proof (Hr AX eq_refl) as RX. pose proof (HM AX) as MX. cbn [vget] in RX, MX.
  assert (Rb : read_node ov g l b = Ok (dataT (bcellT b))).
  { destruct b as [bx by_ bz]. cbn [vx vy vz] in *. apply read_proj. exact Hc. }
  unfold interpolate. rewrite (bf_dim _ _ _ _ _ _ _ F).
  assert (Hd : (1 <= dim <= 3)%nat) by apply Hb.
  assert (G := gen_for ov dim n 1 bmin bmax g Hb ltac:(lia)).
  assert (D : dim = 1%nat \/ dim = 2%nat \/ dim = 3%nat) by lia.
  destruct D as [D|[D|D]].
  - assert (UY : used dim AY = false) by (rewrite D; reflexivity). assert (UZ : used dim AZ = false) by (rewrite D; reflexivity).
    rewrite D at 1. unfold interpolate1. rewrite Eb. cbn [bind]. rewrite S by lia. cbn [bind]. rewrite Exb, Rb. cbn [bind].
    rewrite read_proj by (apply G; rewrite ?UY, ?UZ; auto; lia). cbn [bind].
    unfold hermT, bcellT, project. rewrite UY, UZ. rewrite D. reflexivity.
  - assert (UY : used dim AY = true) by (rewrite D; reflexivity). assert (UZ : used dim AZ = false) by (rewrite D; reflexivity).
    pose proof (Hr AY UY) as RY. pose proof (HM AY) as MY. cbn [vget] in RY, MY.
    rewrite D at 1. unfold interpolate2. rewrite Eb. cbn [bind]. rewrite S by lia. cbn [bind]. rewrite S by lia. cbn [bind]. rewrite Exb, Rb. cbn [bind].
    do 3 (rewrite read_proj by (apply G; rewrite ?UY, ?UZ; auto; lia); cbn [bind]).
    unfold hermT, bcellT, project. rewrite UY, UZ. rewrite D. reflexivity.
  - assert (UY : used dim AY = true) by (rewrite D; reflexivity). assert (UZ : used dim AZ = true) by (rewrite D; reflexivity).
    pose proof (Hr AY UY) as RY. pose proof (HM AY) as MY. cbn [vget] in RY, MY. pose proof (Hr AZ UZ) as RZ. pose proof (HM AZ) as MZ. cbn [vget] in RZ, MZ.
    rewrite D at 1. unfold interpolate3. rewrite Eb. cbn [bind]. rewrite S by lia. cbn [bind]. rewrite S by lia. cbn [bind]. rewrite S by lia. cbn [bind]. rewrite Exb, Rb. cbn [bind].
    do 7 (rewrite read_proj by (apply G; rewrite ?UY, ?UZ; auto; lia); cbn [bind]).
    unfold hermT, bcellT, project. rewrite UY, UZ. rewrite D. reflexivity.
Qed.
End Gen.
