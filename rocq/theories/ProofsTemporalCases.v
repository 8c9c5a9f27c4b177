(** Euler step on constant data; concrete cases for the time steps. *)
From Coq Require Import ZArith List Bool Lia Reals Lra.
From Verif Require Import Base Num ModelVec ModelGrid ModelArray ModelInterp ModelTemporal SpecGrid SpecInterp SpecGradient SpecTemporal
  ProofsBase ProofsGrid ProofsArray ProofsGridProps ProofsInterp ProofsInterpProps ProofsInterpApi ProofsGradientProps ProofsTemporal.
Open Scope R_scope.

(** constant data: the exact solution of the transport equation stays constant, the step does not *)
Lemma euler_constant ov dim n pad bmin bmax (g : grid R) dt lv l c :
  built ov dim n pad bmin bmax g -> levelset_on g l -> velocity_on g lv -> dt <> 0 ->
  (forall i j k, padded_cell dim n pad (i, j, k) -> aget ov g (ls_phi_prev l) i j k = Ok c) ->
  exists l', euler_compute ov g dt lv l = Ok l' /\
  forall i j k v, interior_cell n (i, j, k) -> aget ov g (lv_vel lv) i j k = Ok v -> vx v <> 0 ->
    exists p, aget ov g (ls_phi l') i j k = Ok p /\ p <> c.
Proof.
  intros Hb Hl Hv Hdt HC. destruct (euler_step ov dim n pad bmin bmax g dt lv l Hb Hl Hv) as (l' & E & _ & H). exists l'. split; [exact E|].
  intros i j k v Hi Av Hne. destruct (H i j k Hi) as (p & v' & Ap & Av' & A). rewrite Av in Av'. injection Av' as <-.
  rewrite HC in Ap by (eapply interior_padded; [apply Hb|exact Hi]). injection Ap as <-.
  eexists. split; [exact A|]. cbn [nsub nmul NumR]. assert (dt * vx v <> 0) by (apply Rmult_integral_contrapositive; auto). lra.
Qed.

Lemma interior_in_box ov dim n bmin bmax (g : grid R) i j k p : built ov dim n 1 bmin bmax g -> proper_box dim bmin bmax ->
  interior_cell n (i, j, k) -> node ov g i j k = Ok p -> forall a, used dim a = true -> vget bmin a < vget p a < vget bmax a.
Proof.
  intros Hb Hx Hi Np a U. assert (Hp : padded_cell dim n 1 (i, j, k)) by (eapply interior_padded; [apply Hb|exact Hi]).
  destruct (node_position _ _ _ _ _ _ _ _ _ _ Hb Hp) as (p' & Ep & V). rewrite Np in Ep. injection Ep as <-. rewrite V, U.
  pose proof (h_used _ _ _ _ _ _ _ Hb Hx a U) as Hh. cbv beta in Hh. specialize (Hi a).
  set (h := spacing _ _ _) in *. assert (EN : vget bmax a = vget bmin a + IZR (vget n a) * h).
  { unfold h, spacing. field. apply not_0_IZR. lia. }
  rewrite EN. clearbody h. destruct Hi as (I1 & I2). apply IZR_le in I1. assert (I3 : IZR (ccoord (i, j, k) a) + 1 <= IZR (vget n a)) by (rewrite <- (plus_IZR _ 1); apply IZR_le; lia).
  set (u := IZR (ccoord (i, j, k) a)) in *. set (w := IZR (vget n a)) in *. clearbody u w.
  assert (0 <= u * h) by (apply Rmult_le_pos; lra). assert ((u + 1) * h <= w * h) by (apply Rmult_le_compat_r; lra). lra.
Qed.

(** a level set with arbitrary previous fields, a velocity field given by functions *)
Lemma velocity_exists ov dim n pad bmin bmax (g : grid R) (V : vec3 R -> vec3 R) (M : vec3 R -> mat3 R) : built ov dim n pad bmin bmax g ->
  exists lv, velocity_on g lv /\ forall i j k p, padded_cell dim n pad (i, j, k) -> node ov g i j k = Ok p ->
    aget ov g (lv_vel lv) i j k = Ok (V p) /\ aget ov g (lv_grad lv) i j k = Ok (M p).
Proof.
  intros Hb. destruct (samples_exists ov dim n pad bmin bmax g V Hb) as (a & A1 & A2).
  destruct (samples_exists ov dim n pad bmin bmax g M Hb) as (b & B1 & B2). exists (mkLV a b). split; [split; auto|].
  intros i j k p Hp Np. cbn [lv_vel lv_grad]. destruct (A2 i j k Hp) as (p1 & N1 & E1). destruct (B2 i j k Hp) as (p2 & N2 & E2).
  rewrite Np in N1, N2. injection N1 as <-. injection N2 as <-. auto.
Qed.

(** rotation about the origin with speed 1/4 *)
Definition rot (p : vec3 R) : vec3 R := V3 (- vy p / 4) (vx p / 4) 0.
Definition rotm : mat3 R := M3 (V3 0 (- / 4) 0) (V3 (/ 4) 0 0) (V3 0 0 0).
Lemma rot_derive p r a : derivable_pt_lim (fun t => vget (rot (vset p a t)) r) (vget p a) (mget rotm r a).
Proof.
  assert (C : forall c x, derivable_pt_lim (fun _ => c) x 0) by (intros; apply derivable_pt_lim_const).
  assert (L : forall c x, derivable_pt_lim (fun t => t * c) x c).
  { intros c x. pose proof (derivable_pt_lim_mult id (fct_cte c) x 1 0 (derivable_pt_lim_id x) (derivable_pt_lim_const c x)) as K.
    unfold id, fct_cte in K. replace (1 * c + x * 0) with c in K by ring. exact K. }
  destruct r, a; cbn; try apply C.
  - eapply derivable_pt_lim_ext; [|apply (L (- / 4))]. intros t. cbv beta. unfold Rdiv. ring.
  - apply L.
Qed.

Lemma c34_case (S : cell -> cell_values) : exists g lv l,
  built Wrap 2 (V3 4 3 1)%Z 1 lo1 hi1 g /\ levelset_on g l /\ stores Wrap 2 (V3 4 3 1)%Z 1 g l S /\ velocity_on g lv /\ proper_box 2 lo1 hi1 /\ interp_defined Wrap 2 /\
  (forall i j k p, interior_cell (V3 4 3 1)%Z (i, j, k) -> node Wrap g i j k = Ok p ->
     aget Wrap g (lv_vel lv) i j k = Ok (rot p) /\ inside_lattice 2 (V3 4 3 1)%Z lo1 hi1 (foot (/ 10) (rot p) p) /\
     exists m, aget Wrap g (lv_grad lv) i j k = Ok m /\
       forall r a, used 2 r = true -> used 2 a = true -> derivable_pt_lim (fun t => vget (rot (vset p a t)) r) (vget p a) (mget m r a)).
Proof.
  destruct (built_2d (T := R) Wrap lo1 hi1) as (g & Hb).
  destruct (velocity_exists _ _ _ _ _ _ g rot (fun _ => rotm) Hb) as (lv & Hv & V).
  destruct (stores_exists _ _ _ _ _ _ g S Hb) as (l & Hl & HS).
  exists g, lv, l. split; [exact Hb|]. split; [exact Hl|]. split; [exact HS|]. split; [exact Hv|]. split; [apply unit_box|]. split; [left; reflexivity|].
  intros i j k p Hi Np. assert (Hp : padded_cell 2 (V3 4 3 1)%Z 1 (i, j, k)) by (eapply interior_padded; [apply Hb|exact Hi]).
  destruct (V i j k p Hp Np) as (V1 & V2). split; [exact V1|]. split.
  - pose proof (interior_in_box _ _ _ _ _ _ _ _ _ _ Hb (unit_box 2) Hi Np) as B.
    pose proof (B AX eq_refl) as BX. pose proof (B AY eq_refl) as BY. cbn in BX, BY.
    intros a U. unfold spacing. destruct a; cbn in *; try discriminate; lra.
  - exists rotm. split; [exact V2|]. intros r a _ _. apply rot_derive.
Qed.

Lemma c32_case (S : cell -> cell_values) : exists g lv l,
  built Trap 3 (V3 2 3 4)%Z 1 lo1 hi1 g /\ levelset_on g l /\ stores Trap 3 (V3 2 3 4)%Z 1 g l S /\ velocity_on g lv /\ proper_box 3 lo1 hi1 /\ interp_defined Trap 3 /\
  (forall i j k, interior_cell (V3 2 3 4)%Z (i, j, k) ->
     aget Trap g (lv_vel lv) i j k = Ok (V3 0 0 0) /\ exists m, aget Trap g (lv_grad lv) i j k = Ok m /\ forall r a, mget m r a = 0).
Proof.
  destruct (built_3d1 (T := R) Trap lo1 hi1) as (g & Hb).
  destruct (velocity_exists _ _ _ _ _ _ g (fun _ => V3 0 0 0) (fun _ => M3 (V3 0 0 0) (V3 0 0 0) (V3 0 0 0)) Hb) as (lv & Hv & V).
  destruct (stores_exists _ _ _ _ _ _ g S Hb) as (l & Hl & HS).
  exists g, lv, l. split; [exact Hb|]. split; [exact Hl|]. split; [exact HS|]. split; [exact Hv|]. split; [apply unit_box|]. split; [right; reflexivity|].
  intros i j k Hi. assert (Hp : padded_cell 3 (V3 2 3 4)%Z 1 (i, j, k)) by (eapply interior_padded; [apply Hb|exact Hi]).
  destruct (node_position _ _ _ _ _ _ _ _ _ _ Hb Hp) as (p & Np & _). destruct (V i j k p Hp Np) as (V1 & V2). split; [exact V1|].
  eexists. split; [exact V2|]. intros [| |] [| |]; reflexivity.
Qed.

Lemma c33_case c : exists g lv l,
  built Wrap 1 (V3 5 1 1)%Z 1 lo1 hi1 g /\ levelset_on g l /\ velocity_on g lv /\ proper_box 1 lo1 hi1 /\ interp_defined Wrap 1 /\
  sampled_nodes Wrap 1 (V3 5 1 1)%Z 1 g l c /\
  (forall i j k, interior_cell (V3 5 1 1)%Z (i, j, k) ->
     aget Wrap g (lv_vel lv) i j k = Ok (V3 1 0 0) /\ exists m, aget Wrap g (lv_grad lv) i j k = Ok m /\ forall r a, mget m r a = 0) /\
  (forall i j k p, interior_cell (V3 5 1 1)%Z (i, j, k) -> node Wrap g i j k = Ok p -> in_lattice 1 (V3 5 1 1)%Z lo1 hi1 (foot (/ 10) (V3 1 0 0) p)).
Proof.
  destruct (built_1d (T := R) Wrap lo1 hi1) as (g & Hb).
  destruct (velocity_exists _ _ _ _ _ _ g (fun _ => V3 1 0 0) (fun _ => M3 (V3 0 0 0) (V3 0 0 0) (V3 0 0 0)) Hb) as (lv & Hv & V).
  destruct (sampled_nodes_exists _ _ _ _ _ _ g c Hb) as (l & Hl & HS).
  exists g, lv, l. split; [exact Hb|]. split; [exact Hl|]. split; [exact Hv|]. split; [apply unit_box|]. split; [left; reflexivity|]. split; [exact HS|]. split.
  - intros i j k Hi. assert (Hp : padded_cell 1 (V3 5 1 1)%Z 1 (i, j, k)) by (eapply interior_padded; [apply Hb|exact Hi]).
    destruct (node_position _ _ _ _ _ _ _ _ _ _ Hb Hp) as (p & Np & _). destruct (V i j k p Hp Np) as (V1 & V2). split; [exact V1|].
    eexists. split; [exact V2|]. intros [| |] [| |]; reflexivity.
  - intros i j k p Hi Np. pose proof (interior_in_box _ _ _ _ _ _ _ _ _ _ Hb (unit_box 1) Hi Np) as B.
    pose proof (B AX eq_refl) as BX. cbn in BX. intros a U. unfold spacing. destruct a; cbn in *; try discriminate; lra.
Qed.

Lemma c31_case : exists g lv l,
  built Trap 2 (V3 4 3 1)%Z 1 lo1 hi1 g /\ levelset_on g l /\ velocity_on g lv /\
  (forall i j k, padded_cell 2 (V3 4 3 1)%Z 1 (i, j, k) -> aget Trap g (ls_phi_prev l) i j k = Ok 7) /\
  (forall i j k, interior_cell (V3 4 3 1)%Z (i, j, k) -> aget Trap g (lv_vel lv) i j k = Ok (V3 1 0 0)).
Proof.
  destruct (built_2d (T := R) Trap lo1 hi1) as (g & Hb).
  destruct (velocity_exists _ _ _ _ _ _ g (fun _ => V3 1 0 0) (fun _ => M3 (V3 0 0 0) (V3 0 0 0) (V3 0 0 0)) Hb) as (lv & Hv & V).
  destruct (stores_exists _ _ _ _ _ _ g (fun _ => CV 7 0 0 0 0 0 0 0) Hb) as (l & Hl & HS).
  exists g, lv, l. split; [exact Hb|]. split; [exact Hl|]. split; [exact Hv|]. split.
  - intros i j k Hp. apply (HS i j k Hp).
  - intros i j k Hi. assert (Hp : padded_cell 2 (V3 4 3 1)%Z 1 (i, j, k)) by (eapply interior_padded; [apply Hb|exact Hi]).
    destruct (node_position _ _ _ _ _ _ _ _ _ _ Hb Hp) as (p & Np & _). apply (V i j k p Hp Np).
Qed.
Lemma euler_only_phi {T} {NT : Num T} ov dim n pad bmin bmax (g : grid T) dt lv l :
  built ov dim n pad bmin bmax g -> levelset_on g l -> velocity_on g lv ->
  exists l', euler_compute ov g dt lv l = Ok l' /\ only_phi ov dim n pad g l l'.
Proof. intros Hb Hl Hv. destruct (euler_step ov dim n pad bmin bmax g dt lv l Hb Hl Hv) as (l' & E & O & _). exists l'. auto. Qed.
