(** Time steps. *)
From Coq Require Import ZArith List Bool Lia Reals Lra.
From Verif Require Import Base Num ModelVec ModelGrid ModelArray ModelInterp ModelTemporal SpecGrid SpecInterp SpecTemporal
  ProofsBase ProofsGrid ProofsArray ProofsGridProps ProofsInterp ProofsInterpProps ProofsInterpApi ProofsLoops ProofsChain.
Open Scope R_scope.

(** *** what a step may change, whenever it completes *)
Lemma forM_keeps {A S} (P : S -> Prop) (body : S -> A -> outcome S) cs : forall s s',
  (forall s a s', In a cs -> P s -> body s a = Ok s' -> P s') -> P s -> forM cs body s = Ok s' -> P s'.
Proof.
  induction cs as [|c cs IH]; intros s s' Hb Hs E; cbn [forM] in E.
  - injection E as <-. exact Hs.
  - destruct (body s c) as [s1| | |] eqn:E1; cbn [bind] in E; try discriminate.
    eapply IH; [|eapply Hb; [left; reflexivity|exact Hs|exact E1]|exact E]. intros t a t' Ha. apply Hb. right. exact Ha.
Qed.

Ltac inv_bind E := match type of E with bind ?x _ = Ok _ => let y := fresh "y" in let H := fresh "E" in
  destruct x as [y| | |] eqn:H; cbn [bind] in E; [|discriminate|discriminate|discriminate] end.

Section Frame.
Context {T : Type} {NT : Num T}.
Variables (ov : ovmode) (g : grid T).
Hypothesis Hg : okgrid ov g.

Record keeps (l l' : levelset T) : Prop := {
  k_prev : ls_phi_prev l' = ls_phi_prev l /\ ls_psi_prev l' = ls_psi_prev l /\ ls_mix_prev l' = ls_mix_prev l;
  k_mix : ls_mix l' = ls_mix l;
  k_shape : shaped g (ls_phi l') /\ shaped g (ls_psi l') /\ shaped g (ls_phi_interp l') /\ shaped g (ls_psi_interp l');
  k_ghost : forall c, gcell g c -> ~ interior_cell (g_n g) c ->
    peek g (ls_phi l') c = peek g (ls_phi l) c /\ peek g (ls_psi l') c = peek g (ls_psi l) c /\
    peek g (ls_phi_interp l') c = peek g (ls_phi_interp l) c /\ peek g (ls_psi_interp l') c = peek g (ls_psi_interp l) c }.

Lemma keeps_refl l : shaped g (ls_phi l) -> shaped g (ls_psi l) -> shaped g (ls_phi_interp l) -> shaped g (ls_psi_interp l) -> keeps l l.
Proof. intros. split; auto. Qed.
Lemma keeps_interp l s c a p : gcell g c -> interior_cell (g_n g) c -> keeps l s ->
  keeps l (with_psi_interp (with_phi_interp s (poke g (ls_phi_interp s) c a)) (poke g (ls_psi_interp s) c p)).
Proof.
  intros HC Hi [(A1 & A2 & A3) A4 (B1 & B2 & B3 & B4) G].
  split; cbn [with_psi_interp with_phi_interp ls_phi ls_psi ls_mix ls_phi_prev ls_psi_prev ls_mix_prev ls_phi_interp ls_psi_interp]; auto.
  - split; [exact B1|]. split; [exact B2|]. split; apply poke_shaped; auto.
  - intros c' Hc' Hn. destruct (G c' Hc' Hn) as (G1 & G2 & G3 & G4).
    rewrite !(peek_poke_other ov) by (auto; intros ->; auto). auto.
Qed.
Lemma keeps_update l s c a p : gcell g c -> interior_cell (g_n g) c -> keeps l s ->
  keeps l (with_psi (with_phi s (poke g (ls_phi s) c a)) (poke g (ls_psi s) c p)).
Proof.
  intros HC Hi [(A1 & A2 & A3) A4 (B1 & B2 & B3 & B4) G].
  split; cbn [with_psi with_phi ls_phi ls_psi ls_mix ls_phi_prev ls_psi_prev ls_mix_prev ls_phi_interp ls_psi_interp]; auto.
  - split; [apply poke_shaped; auto|]. split; [apply poke_shaped; auto|]. auto.
  - intros c' Hc' Hn. destruct (G c' Hc' Hn) as (G1 & G2 & G3 & G4).
    rewrite !(peek_poke_other ov) by (auto; intros ->; auto). auto.
Qed.

Lemma sl_keeps dt lv l l' : Z.of_nat (length (g_nodes g)) = gcount g ->
  shaped g (ls_phi l) -> shaped g (ls_psi l) -> shaped g (ls_phi_interp l) -> shaped g (ls_psi_interp l) ->
  sl_compute ov g dt lv l = Ok l' -> keeps l l'.
Proof.
  intros Hlen S1 S2 S3 S4 E. unfold sl_compute in E. inv_bind E. inv_bind E. rename y0 into l1. inv_bind E.
  assert (HU : forall c, interior_cell (g_n g) c -> gcell g c) by (intros c; apply interior_padded; apply Hg).
  assert (Hy : shaped g y).
  { revert E0. unfold sl_root. apply (forM_keeps (shaped g)).
    - intros t [[i' j'] k'] t' Hc' Ht Eb'. unfold sl_root_body in Eb'. inv_bind Eb'. inv_bind Eb'.
      assert (HC : gcell g (i', j', k')) by (apply HU; apply in_interior in Hc'; exact Hc').
      rewrite (aset_poke ov) in Eb' by auto. injection Eb' as <-. apply poke_shaped; auto.
    - apply (array_ctor_shaped ov); auto. }
  assert (K1 : keeps l l1).
  { unfold hermite_compute in E1. revert E1. apply (forM_keeps (keeps l)); [|apply keeps_refl; auto].
    intros s [[i j] k] s' Hc K Eb.
    assert (Hi : interior_cell (g_n g) (i, j, k)).
    { replace (array_cells y) with (num_cells g) in Hc by (symmetry; apply Hy). apply in_interior in Hc. exact Hc. }
    pose proof (HU _ Hi) as HC. pose proof (k_shape _ _ K) as (B1 & B2 & B3 & B4). unfold hermite_body in Eb. inv_bind Eb. inv_bind Eb.
    rewrite (aset_poke ov) in Eb by auto. cbn [bind] in Eb. rewrite (aset_poke ov) in Eb by auto. cbn [bind] in Eb. injection Eb as <-.
    apply keeps_interp; auto. }
  revert E. apply (forM_keeps (keeps l)); [|exact K1].
  intros s [[i j] k] s' Hc K Eb. apply in_interior in Hc. pose proof (HU _ Hc) as HC.
  pose proof (k_shape _ _ K) as (B1 & B2 & B3 & B4). unfold sl_update_body in Eb. inv_bind Eb.
  rewrite (aset_poke ov) in Eb by auto. cbn [bind] in Eb. inv_bind Eb. inv_bind Eb.
  rewrite (aset_poke ov) in Eb by auto. cbn [bind] in Eb. injection Eb as <-. apply keeps_update; auto.
Qed.
End Frame.

Section Props.
Context {T : Type} {NT : Num T}.

Lemma sl_frame ov dim n pad bmin bmax (g : grid T) dt lv l l' : built ov dim n pad bmin bmax g -> levelset_on g l ->
  sl_compute ov g dt lv l = Ok l' -> only_interior ov dim n pad g l l'.
Proof.
  intros Hb Hl E. pose proof (built_ok _ _ _ _ _ _ _ Hb) as F. pose proof (bf_ok _ _ _ _ _ _ _ F) as Hg.
  pose proof (fun A a => array_on_shaped (A := A) _ _ _ _ _ _ _ a Hb) as K.
  destruct (sl_keeps ov g Hg dt lv l l' (bf_len _ _ _ _ _ _ _ F)) as [A1 A2 (B1 & B2 & B3 & B4) G]; try (apply K; apply Hl); auto.
  split; auto.
  - split; [apply K; auto|]. split; [apply K; auto|]. split; apply K; auto.
  - intros i j k Hp Hn. assert (HC : gcell g (i, j, k)) by (apply (built_gcell _ _ _ _ _ _ _ _ Hb); auto).
    rewrite !(aget_peek_c ov) by auto. apply G; auto. rewrite (bf_n _ _ _ _ _ _ _ F). exact Hn.
Qed.

Lemma euler_step ov dim n pad bmin bmax (g : grid T) dt lv l : built ov dim n pad bmin bmax g -> levelset_on g l -> velocity_on g lv ->
  exists l', euler_compute ov g dt lv l = Ok l' /\ only_phi ov dim n pad g l l' /\
    forall i j k, interior_cell n (i, j, k) -> exists p v, aget ov g (ls_phi_prev l) i j k = Ok p /\ aget ov g (lv_vel lv) i j k = Ok v /\
      aget ov g (ls_phi l') i j k = Ok (p - dt * vx v)%num.
Proof.
  intros Hb Hl (Hv & _). pose proof (built_ok _ _ _ _ _ _ _ Hb) as F. pose proof (bf_ok _ _ _ _ _ _ _ F) as Hg.
  pose proof (fun A a => array_on_shaped (A := A) _ _ _ _ _ _ _ a Hb) as K.
  destruct (euler_loop ov g dt lv l Hg) as (l' & E & (R1 & R2 & R3 & R4 & R5 & R6 & R7) & S & Hi & Ho); try (apply K; first [apply Hl|exact Hv]).
  rewrite (bf_n _ _ _ _ _ _ _ F) in *.
  assert (HU : forall c, interior_cell n c -> gcell g c).
  { intros c Hc. apply (built_gcell _ _ _ _ _ _ _ _ Hb). eapply interior_padded; [apply Hb|exact Hc]. }
  exists l'. split; [exact E|]. split.
  - split; auto. { apply K; exact S. }
    intros i j k Hp Hn. assert (HC : gcell g (i, j, k)) by (apply (built_gcell _ _ _ _ _ _ _ _ Hb); auto).
    rewrite !(aget_peek_c ov) by auto. apply Ho; auto.
  - intros i j k Hc. pose proof (HU _ Hc) as HC. destruct (Hi _ Hc) as (p & v & A & B & C). exists p, v.
    rewrite !(aget_peek_c ov) by auto. auto.
Qed.

(** a semi-Lagrangian step, given the interpolation results *)
Lemma sl_done_api ov dim n pad bmin bmax (g : grid T) dt lv l (val : cell -> fields T) :
  built ov dim n pad bmin bmax g -> levelset_on g l -> velocity_on g lv ->
  (forall i j k x v, interior_cell n (i, j, k) -> node ov g i j k = Ok x -> aget ov g (lv_vel lv) i j k = Ok v ->
     interpolate ov g (vsub x (vscale v dt)) l false = Ok (val (i, j, k))) ->
  exists l', sl_compute ov g dt lv l = Ok l' /\ only_interior ov dim n pad g l l' /\
    forall i j k, interior_cell n (i, j, k) -> exists m, aget ov g (lv_grad lv) i j k = Ok m /\
      aget ov g (ls_phi l') i j k = Ok (f_phi (val (i, j, k))) /\
      aget ov g (ls_psi l') i j k = Ok (mdot (msub midentity (mscale m dt)) (f_psi (val (i, j, k)))).
Proof.
  intros Hb Hl (Hv & Hm) Hval. pose proof (built_ok _ _ _ _ _ _ _ Hb) as F. pose proof (bf_ok _ _ _ _ _ _ _ F) as Hg.
  pose proof (fun A a => array_on_shaped (A := A) _ _ _ _ _ _ _ a Hb) as K.
  destruct (sl_step ov g dt lv l val Hg (bf_len _ _ _ _ _ _ _ F)) as (l' & E & _ & _ & Hi & _); try (apply K; first [apply Hl|exact Hv|exact Hm]).
  { rewrite (bf_n _ _ _ _ _ _ _ F). exact Hval. }
  exists l'. split; [exact E|]. split; [eapply sl_frame; eauto|].
  intros i j k Hc. rewrite (bf_n _ _ _ _ _ _ _ F) in Hi.
  assert (HC : gcell g (i, j, k)). { apply (built_gcell _ _ _ _ _ _ _ _ Hb). eapply interior_padded; [apply Hb|exact Hc]. }
  destruct (Hi _ Hc) as (m & A & B & C & _). exists m. rewrite !(aget_peek_c ov) by auto. auto.
Qed.
End Props.

(** *** exact arithmetic *)
Lemma foot_model dt v p : vsub p (vscale v dt) = foot dt v p.
Proof. unfold vsub, vscale, foot. destruct v, p. cbn. f_equal; ring. Qed.
Lemma mdot_get m s a : vget (mdot m s) a = mget m AX a * vx s + mget m AY a * vy s + mget m AZ a * vz s.
Proof. destruct m as [[] [] []], s, a; cbn; ring. Qed.
Lemma mat_get m dt r a : mget (msub midentity (mscale m dt)) r a = (if axis_eqb r a then 1 else 0) - dt * mget m r a.
Proof. destruct m as [[] [] []], r, a; cbn; ring. Qed.

Section Step.
Variables (ov : ovmode) (dim : nat) (n : vec3 Z) (pad : Z) (bmin bmax : vec3 R) (g : grid R) (dt : R) (lv : ls_velocity R) (l : levelset R).
Hypothesis Hb : built ov dim n pad bmin bmax g.
Hypothesis Hl : levelset_on g l.
Hypothesis Hv : velocity_on g lv.

Lemma interior_node i j k : interior_cell n (i, j, k) -> exists p v m, node ov g i j k = Ok p /\ aget ov g (lv_vel lv) i j k = Ok v /\
  aget ov g (lv_grad lv) i j k = Ok m.
Proof.
  intros Hc. pose proof (built_ok _ _ _ _ _ _ _ Hb) as F. pose proof (bf_ok _ _ _ _ _ _ _ F) as Hg.
  assert (Hp : padded_cell dim n pad (i, j, k)) by (eapply interior_padded; [apply Hb|exact Hc]).
  assert (HC : gcell g (i, j, k)) by (apply (built_gcell _ _ _ _ _ _ _ _ Hb); auto).
  destruct (node_position _ _ _ _ _ _ _ _ _ _ Hb Hp) as (p & Ep & _).
  pose proof (fun A a => proj1 (array_on_shaped (A := A) _ _ _ _ _ _ _ a Hb)) as K. destruct Hv as (V1 & V2).
  rewrite !(aget_peek_c ov) by auto.
  destruct (peek_ok ov g _ _ Hg (K _ _ V1) HC) as (v & Ev). destruct (peek_ok ov g _ _ Hg (K _ _ V2) HC) as (m & Em).
  exists p, v, m. auto.
Qed.

Definition cell_value (c : cell) : fields R :=
  match c with (i, j, k) =>
    match node ov g i j k, aget ov g (lv_vel lv) i j k with
    | Ok x, Ok v => match interpolate ov g (foot dt v x) l false with Ok f => f | _ => mkFields 0 vzero end
    | _, _ => mkFields 0 vzero
    end
  end.

(** a step is defined as soon as all interpolations are, and then every cell follows the characteristic *)
Lemma sl_general :
  (forall i j k p v, interior_cell n (i, j, k) -> node ov g i j k = Ok p -> aget ov g (lv_vel lv) i j k = Ok v ->
     exists f, interpolate ov g (foot dt v p) l false = Ok f) ->
  exists l', sl_compute ov g dt lv l = Ok l' /\ only_interior ov dim n pad g l l' /\
    forall i j k, interior_cell n (i, j, k) -> exists p v m f y,
      node ov g i j k = Ok p /\ aget ov g (lv_vel lv) i j k = Ok v /\ aget ov g (lv_grad lv) i j k = Ok m /\
      interpolate ov g (foot dt v p) l false = Ok f /\
      aget ov g (ls_phi l') i j k = Ok (f_phi f) /\ aget ov g (ls_psi l') i j k = Ok y /\
      forall a, vget y a = ((if axis_eqb AX a then 1 else 0) - dt * mget m AX a) * vx (f_psi f)
                         + ((if axis_eqb AY a then 1 else 0) - dt * mget m AY a) * vy (f_psi f)
                         + ((if axis_eqb AZ a then 1 else 0) - dt * mget m AZ a) * vz (f_psi f).
Proof.
  intros HI.
  destruct (sl_done_api ov dim n pad bmin bmax g dt lv l cell_value Hb Hl Hv) as (l' & E & O & Hc).
  { intros i j k x v Hc Nx Av. destruct (HI i j k x v Hc Nx Av) as (f & Ef). rewrite foot_model. unfold cell_value. rewrite Nx, Av, Ef. reflexivity. }
  exists l'. split; [exact E|]. split; [exact O|]. intros i j k Hi.
  destruct (interior_node i j k Hi) as (p & v & m & Np & Av & Am). destruct (HI i j k p v Hi Np Av) as (f & Ef).
  destruct (Hc i j k Hi) as (m' & Am' & P & S). rewrite Am in Am'. injection Am' as <-.
  assert (EV : cell_value (i, j, k) = f) by (unfold cell_value; rewrite Np, Av, Ef; reflexivity). rewrite EV in P, S.
  exists p, v, m, f. eexists. split; [exact Np|]. split; [exact Av|]. split; [exact Am|]. split; [exact Ef|]. split; [exact P|]. split; [exact S|].
  intros a. rewrite mdot_get, !mat_get. reflexivity.
Qed.
End Step.

(** *** C32 *)
Lemma foot_rest dt v p : dt = 0 \/ v = V3 0 0 0 -> foot dt v p = p.
Proof. intros [->| ->]; unfold foot; destruct p; cbn; f_equal; ring. Qed.

Lemma sl_rest ov dim n bmin bmax (g : grid R) dt lv l :
  built ov dim n 1 bmin bmax g -> levelset_on g l -> velocity_on g lv -> proper_box dim bmin bmax -> interp_defined ov dim ->
  (dt = 0 \/ forall i j k, interior_cell n (i, j, k) ->
     aget ov g (lv_vel lv) i j k = Ok (V3 0 0 0) /\ exists m, aget ov g (lv_grad lv) i j k = Ok m /\ forall r a, mget m r a = 0) ->
  exists l', sl_compute ov g dt lv l = Ok l' /\ only_interior ov dim n 1 g l l' /\
    forall i j k, interior_cell n (i, j, k) -> exists phi psi y,
      aget ov g (ls_phi_prev l) i j k = Ok phi /\ aget ov g (ls_psi_prev l) i j k = Ok psi /\
      aget ov g (ls_phi l') i j k = Ok phi /\ aget ov g (ls_psi l') i j k = Ok y /\
      forall a, vget y a = if used dim a then vget psi a else 0.
Proof.
  intros Hb Hl Hv Hbox Hdef Hr.
  assert (ND : forall i j k p, interior_cell n (i, j, k) -> node ov g i j k = Ok p -> exists f phi psi,
     interpolate ov g p l false = Ok f /\ aget ov g (ls_phi_prev l) i j k = Ok phi /\ aget ov g (ls_psi_prev l) i j k = Ok psi /\
     f_phi f = phi /\ forall a, vget (f_psi f) a = if used dim a then vget psi a else 0).
  { intros i j k p Hi Np. apply (interp_node ov dim n bmin bmax g l Hb Hl Hbox Hdef i j k p); auto.
    - eapply interior_padded; [apply Hb|exact Hi].
    - intros a _. apply Hi. }
  assert (FT : forall i j k p v, interior_cell n (i, j, k) -> aget ov g (lv_vel lv) i j k = Ok v -> foot dt v p = p).
  { intros i j k p v Hi Av. apply foot_rest. destruct Hr as [->|Hr]; [auto|]. right. destruct (Hr i j k Hi) as (A & _). congruence. }
  destruct (sl_general ov dim n 1 bmin bmax g dt lv l Hb Hl Hv) as (l' & E & O & Hc).
  { intros i j k p v Hi Np Av. rewrite (FT i j k p v Hi Av). destruct (ND i j k p Hi Np) as (f & _ & _ & Ef & _). exists f. exact Ef. }
  exists l'. split; [exact E|]. split; [exact O|]. intros i j k Hi.
  destruct (Hc i j k Hi) as (p & v & m & f & y & Np & Av & Am & Ef & P & S & V). rewrite (FT i j k p v Hi Av) in Ef.
  destruct (ND i j k p Hi Np) as (f' & phi & psi & Ef' & Ap & As & P1 & P2). rewrite Ef in Ef'. injection Ef' as <-.
  exists phi, psi, y. rewrite P1 in P. split; [exact Ap|]. split; [exact As|]. split; [exact P|]. split; [exact S|].
  intros a. rewrite <- P2, V.
  assert (Z0 : forall r, dt * mget m r a = 0).
  { intros r. destruct Hr as [->|Hr]; [ring|]. destruct (Hr i j k Hi) as (_ & m' & Am' & Z). rewrite Am in Am'. injection Am' as <-. rewrite Z. ring. }
  rewrite !Z0. destruct a; cbn; ring.
Qed.

(** *** C33 *)
Lemma sl_translate ov dim n pad bmin bmax (g : grid R) dt lv l v c :
  built ov dim n pad bmin bmax g -> (1 <= pad)%Z -> levelset_on g l -> velocity_on g lv -> proper_box dim bmin bmax -> interp_defined ov dim ->
  sampled_nodes ov dim n pad g l c ->
  (forall i j k, interior_cell n (i, j, k) ->
     aget ov g (lv_vel lv) i j k = Ok v /\ exists m, aget ov g (lv_grad lv) i j k = Ok m /\ forall r a, mget m r a = 0) ->
  (forall i j k p, interior_cell n (i, j, k) -> node ov g i j k = Ok p -> in_lattice dim n bmin bmax (foot dt v p)) ->
  exists l', sl_compute ov g dt lv l = Ok l' /\ only_interior ov dim n pad g l l' /\
    forall i j k, interior_cell n (i, j, k) -> exists p y, node ov g i j k = Ok p /\
      aget ov g (ls_phi l') i j k = Ok (poly c (flat dim (foot dt v p))) /\ aget ov g (ls_psi l') i j k = Ok y /\
      forall a, vget y a = if used dim a then dpoly a c (flat dim (foot dt v p)) else 0.
Proof.
  intros Hb Hpad Hl Hv Hbox Hdef HS HV HL.
  destruct (sl_general ov dim n pad bmin bmax g dt lv l Hb Hl Hv) as (l' & E & O & Hc).
  { intros i j k p w Hi Np Aw. destruct (HV i j k Hi) as (A & _). rewrite A in Aw. injection Aw as <-.
    destruct (interp_exact_pad ov dim n pad bmin bmax g l Hb Hpad Hl Hbox Hdef c _ HS (HL i j k p Hi Np)) as (f & Ef & _). exists f. exact Ef. }
  exists l'. split; [exact E|]. split; [exact O|]. intros i j k Hi.
  destruct (Hc i j k Hi) as (p & w & m & f & y & Np & Aw & Am & Ef & P & S & V).
  destruct (HV i j k Hi) as (A & m' & Am' & Z). rewrite A in Aw. injection Aw as <-. rewrite Am in Am'. injection Am' as <-.
  destruct (interp_exact_pad ov dim n pad bmin bmax g l Hb Hpad Hl Hbox Hdef c _ HS (HL i j k p Hi Np)) as (f' & Ef' & P1 & P2).
  rewrite Ef in Ef'. injection Ef' as <-. exists p, y. rewrite P1 in P. split; [exact Np|]. split; [exact P|]. split; [exact S|].
  intros a. rewrite <- P2, V, !Z. destruct a; cbn; ring.
Qed.

(** *** C34 *)
Lemma axis_eqb_refl a : axis_eqb a a = true.
Proof. destruct a; reflexivity. Qed.

Section C34.
Variables (ov : ovmode) (dim : nat) (n : vec3 Z) (bmin bmax : vec3 R) (g : grid R) (l : levelset R).
Hypothesis Hb : built ov dim n 1 bmin bmax g.
Hypothesis Hl : levelset_on g l.
Hypothesis Hbox : proper_box dim bmin bmax.
Hypothesis Hdef : interp_defined ov dim.

Lemma inside_in x : inside_lattice dim n bmin bmax x -> in_lattice dim n bmin bmax x.
Proof. intros H a U. specialize (H a U). cbv zeta in *. lra. Qed.

Lemma inside_near x : inside_lattice dim n bmin bmax x -> exists d, 0 < d /\ forall y, near d x y -> inside_lattice dim n bmin bmax y.
Proof.
  intros H.
  set (lo := fun a => vget bmin a - spacing (vget bmin a) (vget bmax a) (vget n a) / 2).
  set (hi := fun a => vget bmax a + spacing (vget bmin a) (vget bmax a) (vget n a) / 2).
  assert (K : forall a, exists d, 0 < d /\ (used dim a = true -> forall s, Rabs (s - vget x a) < d -> lo a < s < hi a)).
  { intros a. destruct (used dim a) eqn:U; [|exists 1; split; [lra|discriminate]].
    specialize (H a U). cbv zeta in H. fold (lo a) in H. fold (hi a) in H.
    exists (Rmin (vget x a - lo a) (hi a - vget x a)). split; [apply Rmin_glb_lt; lra|].
    intros _ s Hs. pose proof (Rmin_l (vget x a - lo a) (hi a - vget x a)). pose proof (Rmin_r (vget x a - lo a) (hi a - vget x a)).
    apply Rabs_def2 in Hs. lra. }
  destruct (K AX) as (d1 & P1 & Q1). destruct (K AY) as (d2 & P2 & Q2). destruct (K AZ) as (d3 & P3 & Q3).
  exists (Rmin d1 (Rmin d2 d3)). split; [repeat apply Rmin_glb_lt; auto|].
  intros y Hy a U. cbv zeta. fold (lo a). fold (hi a). specialize (Hy a).
  pose proof (Rmin_l d1 (Rmin d2 d3)). pose proof (Rmin_r d1 (Rmin d2 d3)). pose proof (Rmin_l d2 d3). pose proof (Rmin_r d2 d3).
  destruct a; [apply Q1|apply Q2|apply Q3]; auto; lra.
Qed.

(** freeze the unused coordinates at those of x *)
Definition freeze (x y : vec3 R) : vec3 R :=
  V3 (vx y) (if used dim AY then vy y else vy x) (if used dim AZ then vz y else vz x).
Lemma freeze_get x y a : vget (freeze x y) a = if used dim a then vget y a else vget x a.
Proof. destruct a; cbn; reflexivity. Qed.

Lemma small_zero r : (forall eps, 0 < eps -> Rabs r < eps) -> r = 0.
Proof.
  intros H. destruct (Req_dec r 0); auto. pose proof (Rabs_pos_lt r H0) as K. specialize (H (Rabs r) K). lra.
Qed.

Lemma interpolant_chain : exists F, (forall y, in_lattice dim n bmin bmax y -> interpolate ov g y l false = Ok (F y)) /\
  (forall x a, in_lattice dim n bmin bmax x -> used dim a = false -> vget (f_psi (F x)) a = 0) /\
  forall X X' t0, inside_lattice dim n bmin bmax (X t0) ->
    (forall a, used dim a = true -> derivable_pt_lim (fun t => vget (X t) a) t0 (X' a)) ->
    derivable_pt_lim (fun t => f_phi (F (X t))) t0
      (let s := f_psi (F (X t0)) in vx s * X' AX + vy s * X' AY + vz s * X' AZ).
Proof.
  destruct (interp_field ov dim n bmin bmax g l Hb Hl Hbox Hdef) as (F & F1 & F2 & F3 & F4).
  exists F. split; [exact F1|]. split; [exact F3|]. intros X X' t0 Hin HX. cbv zeta.
  set (x := X t0) in *.
  assert (IND : forall y z, in_lattice dim n bmin bmax y -> in_lattice dim n bmin bmax z ->
    (forall a, used dim a = true -> vget z a = vget y a) -> f_phi (F z) = f_phi (F y)).
  { intros y z Hy Hz Hyz. apply Rminus_diag_uniq. apply small_zero. intros eps He.
    destruct (F4 y eps Hy He) as (d & Hd & HC). apply (HC z Hz). intros a U. rewrite (Hyz a U), Rminus_eq_0, Rabs_R0. exact Hd. }
  destruct (inside_near x Hin) as (rho & Hrho & Hnear).
  assert (IN : forall y, inside_lattice dim n bmin bmax y -> inside_lattice dim n bmin bmax (freeze x y)).
  { intros y Hy a U. rewrite freeze_get, U. apply Hy; auto. }
  (* the curve with unused coordinates frozen *)
  set (Y := fun t => freeze x (X t)).
  set (Y' := fun a => if used dim a then X' a else 0).
  assert (EY : Y t0 = x). { unfold Y, freeze. fold x. destruct (used dim AY), (used dim AZ); destruct x; reflexivity. }
  assert (CH : derivable_pt_lim (fun t => f_phi (F (Y t))) t0
     (vget (f_psi (F x)) AX * Y' AX + vget (f_psi (F x)) AY * Y' AY + vget (f_psi (F x)) AZ * Y' AZ)).
  { apply (chain (fun y => f_phi (F y)) (fun y a => vget (f_psi (F y)) a) x rho Hrho).
    - intros y a Hy. apply Hnear in Hy. destruct (used dim a) eqn:U.
      + apply F2; auto; [apply inside_in; auto|]. apply Hy; auto.
      + rewrite F3; auto; [|apply inside_in; auto].
        eapply derivable_pt_lim_ext; [|apply derivable_pt_lim_const with (a := f_phi (F y))].
        intros t. cbv beta. unfold fct_cte. symmetry. apply IND.
        * apply inside_in; auto.
        * intros b Ub. assert (E : vget (vset y a t) b = vget y b) by (destruct a, b; cbn in *; auto; congruence). rewrite E. apply inside_in; auto.
        * intros b Ub. destruct a, b; cbn in *; auto; congruence.
    - intros eps He. destruct (F4 x eps (inside_in _ Hin) He) as (d & Hd & HC). exists (Rmin d rho). split; [apply Rmin_glb_lt; auto|].
      intros y Hy a. assert (Hy' : inside_lattice dim n bmin bmax y).
      { apply Hnear. intros b. eapply Rlt_le_trans; [apply Hy|apply Rmin_r]. }
      apply (HC y (inside_in _ Hy')). intros b _. eapply Rlt_le_trans; [apply Hy|apply Rmin_l].
    - exact EY.
    - intros a. unfold Y, Y'. destruct (used dim a) eqn:U.
      + eapply derivable_pt_lim_ext; [|apply HX; exact U]. intros t. cbv beta. rewrite freeze_get, U. reflexivity.
      + eapply derivable_pt_lim_ext; [|apply derivable_pt_lim_const with (a := vget x a)]. intros t. cbv beta. unfold fct_cte. rewrite freeze_get, U. reflexivity. }
  (* near t0 the curve stays inside, so freezing changes nothing *)
  assert (LOC : exists e, 0 < e /\ forall t, Rabs (t - t0) < e -> f_phi (F (X t)) = f_phi (F (Y t))).
  { assert (C : forall a, exists e, 0 < e /\ (used dim a = true -> forall t, Rabs (t - t0) < e -> Rabs (vget (X t) a - vget x a) < rho)).
    { intros a. destruct (used dim a) eqn:U; [|exists 1; split; [lra|discriminate]].
      assert (CT : continuity_pt (fun t => vget (X t) a) t0) by (apply derivable_continuous_pt; exists (X' a); apply HX; exact U).
      destruct (CT rho Hrho) as (e & He & HC). exists e. split; [exact He|]. intros _ t Ht. destruct (Req_dec t t0) as [->|Hne].
      - fold x. rewrite Rminus_eq_0, Rabs_R0. exact Hrho.
      - apply (HC t). split; [split; [exact I|auto]|exact Ht]. }
    destruct (C AX) as (e1 & P1 & Q1). destruct (C AY) as (e2 & P2 & Q2). destruct (C AZ) as (e3 & P3 & Q3).
    exists (Rmin e1 (Rmin e2 e3)). split; [repeat apply Rmin_glb_lt; auto|]. intros t Ht.
    pose proof (Rmin_l e1 (Rmin e2 e3)). pose proof (Rmin_r e1 (Rmin e2 e3)). pose proof (Rmin_l e2 e3). pose proof (Rmin_r e2 e3).
    assert (HN : near rho x (Y t)).
    { intros a. unfold Y. rewrite freeze_get. destruct (used dim a) eqn:U; [|rewrite Rminus_eq_0, Rabs_R0; exact Hrho].
      destruct a; [apply Q1|apply Q2|apply Q3]; auto; lra. }
    apply Hnear in HN. symmetry. apply IND.
    - intros a U. pose proof (HN a U) as K. unfold Y in K. rewrite freeze_get, U in K. cbv zeta in *. lra.
    - apply inside_in. exact HN.
    - intros a U. unfold Y. rewrite freeze_get, U. reflexivity. }
  destruct LOC as (e & He & HE).
  assert (V : vget (f_psi (F x)) AX * Y' AX + vget (f_psi (F x)) AY * Y' AY + vget (f_psi (F x)) AZ * Y' AZ
    = vx (f_psi (F x)) * X' AX + vy (f_psi (F x)) * X' AY + vz (f_psi (F x)) * X' AZ).
  { unfold Y'. pose proof (F3 x AY (inside_in _ Hin)) as Z1. pose proof (F3 x AZ (inside_in _ Hin)) as Z2. cbn [vget] in *. cbn [used] in *.
    destruct (Nat.leb 2 dim), (Nat.leb 3 dim); rewrite ?Z1, ?Z2 by reflexivity; ring. }
  rewrite V in CH. intros eps Heps. destruct (CH eps Heps) as (d & HD).
  assert (Hm : 0 < Rmin d e) by (apply Rmin_glb_lt; [apply cond_pos|exact He]).
  exists (mkposreal _ Hm). intros h Hh Hlt. cbn [pos] in Hlt.
  assert (L1 : Rabs h < d) by (eapply Rlt_le_trans; [exact Hlt|apply Rmin_l]).
  assert (L2 : Rabs h < e) by (eapply Rlt_le_trans; [exact Hlt|apply Rmin_r]).
  specialize (HD h Hh L1). rewrite <- (HE (t0 + h)) in HD by (replace (t0 + h - t0) with h by ring; exact L2).
  rewrite <- (HE t0) in HD by (rewrite Rminus_eq_0, Rabs_R0; exact He). exact HD.
Qed.
End C34.

Lemma sl_gradient ov dim n bmin bmax (g : grid R) dt lv l (V : vec3 R -> vec3 R) :
  built ov dim n 1 bmin bmax g -> levelset_on g l -> velocity_on g lv -> proper_box dim bmin bmax -> interp_defined ov dim ->
  (forall i j k p, interior_cell n (i, j, k) -> node ov g i j k = Ok p ->
     aget ov g (lv_vel lv) i j k = Ok (V p) /\ inside_lattice dim n bmin bmax (foot dt (V p) p) /\
     exists m, aget ov g (lv_grad lv) i j k = Ok m /\
       forall r a, used dim r = true -> used dim a = true -> derivable_pt_lim (fun t => vget (V (vset p a t)) r) (vget p a) (mget m r a)) ->
  exists F l', (forall y, in_lattice dim n bmin bmax y -> interpolate ov g y l false = Ok (F y)) /\
    sl_compute ov g dt lv l = Ok l' /\ only_interior ov dim n 1 g l l' /\
    let Phi q := f_phi (F (foot dt (V q) q)) in
    forall i j k, interior_cell n (i, j, k) -> exists p y, node ov g i j k = Ok p /\
      aget ov g (ls_phi l') i j k = Ok (Phi p) /\ aget ov g (ls_psi l') i j k = Ok y /\
      forall a, used dim a = true -> derivable_pt_lim (fun t => Phi (vset p a t)) (vget p a) (vget y a).
Proof.
  intros Hb Hl Hv Hbox Hdef HV.
  destruct (interpolant_chain ov dim n bmin bmax g l Hb Hl Hbox Hdef) as (F & F1 & F3 & FC). exists F.
  destruct (sl_general ov dim n 1 bmin bmax g dt lv l Hb Hl Hv) as (l' & E & O & Hc).
  { intros i j k p v Hi Np Av. destruct (HV i j k p Hi Np) as (A & IL & _). rewrite A in Av. injection Av as <-.
    exists (F (foot dt (V p) p)). apply F1. apply inside_in; auto. }
  exists l'. split; [exact F1|]. split; [exact E|]. split; [exact O|]. cbv zeta. intros i j k Hi.
  destruct (Hc i j k Hi) as (p & v & m & f & y & Np & Av & Am & Ef & P & S & VV).
  destruct (HV i j k p Hi Np) as (A & IL & m' & Am' & HD). rewrite A in Av. injection Av as <-. rewrite Am in Am'. injection Am' as <-.
  rewrite F1 in Ef by (apply inside_in; auto). injection Ef as <-.
  exists p, y. split; [exact Np|]. split; [exact P|]. split; [exact S|]. intros a U. rewrite VV.
  set (X := fun t => foot dt (V (vset p a t)) (vset p a t)).
  assert (EX : X (vget p a) = foot dt (V p) p) by (unfold X; replace (vset p a (vget p a)) with p by (destruct p, a; reflexivity); reflexivity).
  pose proof (FC X (fun r => (if axis_eqb r a then 1 else 0) - dt * mget m r a) (vget p a)) as K. rewrite EX in K. specialize (K IL).
  assert (K2 : forall r, used dim r = true -> derivable_pt_lim (fun t => vget (X t) r) (vget p a) ((if axis_eqb r a then 1 else 0) - dt * mget m r a)).
  { intros r Ur. apply (derivable_pt_lim_ext (fun t => vget (vset p a t) r - dt * vget (V (vset p a t)) r)).
    - intros t. unfold X, foot. destruct r; reflexivity.
    - apply (derivable_pt_lim_minus (fun t => vget (vset p a t) r) (fun t => dt * vget (V (vset p a t)) r)).
      + destruct (axis_eqb r a) eqn:Era.
        * assert (r = a) by (destruct r, a; cbn in Era; congruence). subst r.
          apply (derivable_pt_lim_ext id); [intros t; rewrite vget_vset_same; reflexivity|apply derivable_pt_lim_id].
        * apply (derivable_pt_lim_ext (fct_cte (vget p r))); [intros t; destruct r, a; cbn in *; try reflexivity; discriminate|apply derivable_pt_lim_const].
      + apply (derivable_pt_lim_scal (fun t => vget (V (vset p a t)) r) dt). apply HD; auto. }
  specialize (K K2). cbv zeta in K.
  replace (((if axis_eqb AX a then 1 else 0) - dt * mget m AX a) * vx (f_psi (F (foot dt (V p) p))) +
    ((if axis_eqb AY a then 1 else 0) - dt * mget m AY a) * vy (f_psi (F (foot dt (V p) p))) +
    ((if axis_eqb AZ a then 1 else 0) - dt * mget m AZ a) * vz (f_psi (F (foot dt (V p) p)))) with
    (vx (f_psi (F (foot dt (V p) p))) * ((if axis_eqb AX a then 1 else 0) - dt * mget m AX a) +
     vy (f_psi (F (foot dt (V p) p))) * ((if axis_eqb AY a then 1 else 0) - dt * mget m AY a) +
     vz (f_psi (F (foot dt (V p) p))) * ((if axis_eqb AZ a then 1 else 0) - dt * mget m AZ a)) by ring.
  exact K.
Qed.
