(** One iteration of the main loop, given enough ghost layers. *)
From Coq Require Import ZArith List Bool String Lia Reals Lra QArith.
From Verif Require Import Base Num ModelVec ModelGrid ModelArray ModelInterp ModelGradient ModelTemporal ModelAnalytic ModelApp ModelRun
  SpecGrid SpecInterp SpecGradient SpecTemporal SpecRun
  NumB64 ProofsBase ProofsGrid ProofsArray ProofsGridProps ProofsInterp ProofsInterpProps ProofsInterpApi ProofsGradient ProofsGradientProps ProofsTemporal ProofsTemporalCases ProofsRun ProofsRunCases ProofsInterpCases ProofsAnalytic.
Import ListNotations.
Open Scope R_scope.

Lemma interpolate_prev {T} {NT : Num T} ov (g : grid T) (l l' : levelset T) x lim :
  ls_phi_prev l' = ls_phi_prev l -> ls_psi_prev l' = ls_psi_prev l -> ls_mix_prev l' = ls_mix_prev l ->
  interpolate ov g x l' lim = interpolate ov g x l lim.
Proof.
  intros E1 E2 E3. assert (K : forall b, read_node ov g l' b = read_node ov g l b) by (intros b; unfold read_node; rewrite E1, E2, E3; reflexivity).
  assert (Kb : forall A B (m : outcome A) (h k : A -> outcome B), (forall a, h a = k a) -> bind m h = bind m k) by (intros A B [] h k H; cbn; auto).
  unfold interpolate, interpolate1, interpolate2, interpolate3. destruct (g_dim g) as [|[|[|d]]];
    repeat (first [rewrite K | apply Kb; intros]); reflexivity.
Qed.

Lemma iteration_ok ov bt dim n pad bmin bmax (g : grid R) vi pos (dt t : R) s lv' m' :
  built ov dim n pad bmin bmax g -> (2 <= pad)%Z -> proper_box dim bmin bmax -> interp_defined ov dim ->
  levelset_on g (ap_ls s) -> av_compute ov bt g (ap_map s) vi pos t (ap_vel s) = Ok (lv', m') -> velocity_on g lv' ->
  (forall i j k p v, interior_cell n (i, j, k) -> node ov g i j k = Ok p -> aget ov g (lv_vel lv') i j k = Ok v -> in_lattice dim n bmin bmax (foot dt v p)) ->
  exists s', app_iteration ov bt g vi pos dt t s = Ok s' /\ ap_vel s' = lv' /\ levelset_on g (ap_ls s') /\
    (forall i j k, aget ov g (ls_phi_prev (ap_ls s')) i j k = aget ov g (ls_phi (ap_ls s)) i j k) /\
    (forall c, samples ov dim n pad g (ls_phi (ap_ls s)) (poly c) -> forall i j k, interior_cell n (i, j, k) -> exists p y,
       node ov g i j k = Ok p /\ aget ov g (ls_psi_prev (ap_ls s')) i j k = Ok y /\ forall a, used dim a = true -> vget y a = dpoly a c p) /\
    (forall i j k, interior_cell n (i, j, k) -> exists p v f, node ov g i j k = Ok p /\ aget ov g (lv_vel lv') i j k = Ok v /\
       interpolate ov g (foot dt v p) (ap_ls s') false = Ok f /\ aget ov g (ls_phi (ap_ls s')) i j k = Ok (f_phi f)) /\
    (forall i j k, padded_cell dim n pad (i, j, k) -> ~ interior_cell n (i, j, k) ->
       aget ov g (ls_phi (ap_ls s')) i j k = aget ov g (ls_phi (ap_ls s)) i j k).
Proof.
  intros Hb Hp Hbox Hdef Hl EV Hv HF. set (l := ap_ls s) in *.
  pose proof (built_ok _ _ _ _ _ _ _ Hb) as F.
  destruct (third_scalar_effect ov g (bf_ok _ _ _ _ _ _ _ F) (ls_phi l) (ls_psi l)) as (psi & Epsi & Spsi & _);
    [rewrite (bf_pad _ _ _ _ _ _ _ F); lia|apply (array_on_shaped _ _ _ _ _ _ _ _ Hb); apply Hl|apply (array_on_shaped _ _ _ _ _ _ _ _ Hb); apply Hl|].
  apply (array_on_shaped _ _ _ _ _ _ _ _ Hb) in Spsi.
  assert (Hl1 : levelset_on g (with_psi l psi)) by (destruct Hl; constructor; auto).
  pose proof (keep_on _ _ Hl1) as Hk.
  destruct (sl_general ov dim n pad bmin bmax g dt lv' (keep_prev (with_psi l psi)) Hb Hk Hv) as (l' & E & O & Hc).
  { intros i j k p v Hi Np Av. eexists.
    apply (interp_eval_pad ov dim n pad bmin bmax g _ Hb ltac:(lia) Hk Hbox Hdef). apply (HF i j k p v Hi Np Av). }
  assert (Hl' : levelset_on g l') by (eapply only_on; [exact Hk|exact O]).
  exists (mkApp lv' l' m'). split.
  { unfold app_iteration. rewrite EV. cbn [bind fst snd]. fold l. rewrite Epsi. cbn [bind].
    change (with_psi_prev _ _) with (keep_prev (with_psi l psi)). rewrite E. reflexivity. }
  cbn [ap_vel ap_ls]. destruct O as [(O1 & O2 & O3) _ _ OG]. split; [reflexivity|]. split; [exact Hl'|]. split.
  { intros i j k. rewrite O1. reflexivity. }
  split.
  { intros c HS i j k Hi. destruct (third_exact ov dim n pad bmin bmax g Hb Hbox (ls_phi l) (ls_psi l) c (on_phi _ _ Hl) (on_psi _ _ Hl) HS Hp) as (psi' & E' & _ & R & _).
    rewrite Epsi in E'. injection E' as <-. destruct (R i j k Hi) as (p & x & y & Np & _ & Ay & Hy). exists p, y.
    split; [exact Np|]. split; [rewrite O2; exact Ay|]. intros a Ha. rewrite Hy, Ha. reflexivity. }
  split.
  { intros i j k Hi. destruct (Hc i j k Hi) as (p & v & m & f & y & Np & Av & _ & If & Af & _). exists p, v, f.
    split; [exact Np|]. split; [exact Av|]. split; [|exact Af]. rewrite <- If. apply interpolate_prev; auto. }
  intros i j k Hi Hni. destruct (OG i j k Hi Hni) as (G1 & _). exact G1.
Qed.

(** a line of 5 cells with two ghost layers, moved by one cell *)
Lemma c121_case (c : nat -> nat -> nat -> R) (pos : array (vec3 R)) : exists g s lv' m',
  built Wrap 1 (V3 5 1 1)%Z 2 lo1 hi1 g /\ proper_box 1 lo1 hi1 /\ interp_defined Wrap 1 /\ levelset_on g (ap_ls s) /\
  samples Wrap 1 (V3 5 1 1)%Z 2 g (ls_phi (ap_ls s)) (poly c) /\
  av_compute Wrap true g (ap_map s) (mkVI "" [] [] "") pos 1 (ap_vel s) = Ok (lv', m') /\ velocity_on g lv' /\
  (forall i j k p v, interior_cell (V3 5 1 1)%Z (i, j, k) -> node Wrap g i j k = Ok p -> aget Wrap g (lv_vel lv') i j k = Ok v ->
     in_lattice 1 (V3 5 1 1)%Z lo1 hi1 (foot (1 / 5) v p)).
Proof.
  destruct (built_exists Wrap 1 (V3 5 1 1)%Z 2 lo1 hi1 (proj1 good_1dp2) I) as (g & Hb).
  destruct (samples_exists Wrap 1 _ 2 _ _ g (poly c) Hb) as (al & Ha & HS).
  destruct (current_exists _ _ _ _ _ _ g (fun _ => CV 0 0 0 0 0 0 0 0) Hb) as (l & Hl & _).
  destruct (velocity_exists _ _ _ _ _ _ g (fun _ => V3 2 0 0) (fun _ => M3 (V3 0 0 0) (V3 0 0 0) (V3 0 0 0)) Hb) as (lv & Hv & V).
  destruct (unknown_velocity Wrap true g [] (mkVI "" [] [] "") pos 1 lv) as (m' & Em); [discriminate|].
  exists g, (mkApp lv (with_phi l al) vel_map0), lv, m'.
  split; [exact Hb|]. split; [apply unit_box|]. split; [left; reflexivity|]. split; [destruct Hl; constructor; auto|]. split; [exact HS|].
  split; [exact Em|]. split; [exact Hv|]. intros i j k p v Hi Np Av.
  assert (Hp : padded_cell 1 (V3 5 1 1)%Z 2 (i, j, k)) by (eapply interior_padded; [apply Hb|exact Hi]).
  destruct (V i j k p Hp Np) as (V1 & _). rewrite Av in V1. injection V1 as ->.
  destruct (node_position _ _ _ _ _ _ _ _ _ _ Hb Hp) as (p' & Np' & Vp). rewrite Np in Np'. injection Np' as <-.
  intros [| |] U; try discriminate U. pose proof (Vp AX) as VX. cbn [vget used ccoord] in VX. unfold foot. cbv zeta. cbn [vget vx]. rewrite VX. cbn [vget]. unfold spacing, lo1, hi1. cbn [vx].
  pose proof (Hi AX) as HX. cbn in HX. assert (0 <= IZR i <= 4) by (split; apply IZR_le; lia). lra.
Qed.

(** at rest, with two ghost layers *)
Definition spike_state : app_state (T := Q) :=
  let mk {A} (a : list A) : array A := mkArray (V3 5 1 1)%Z 2%Z a in
  let zs := repeat 0%Q 9 in let vs := repeat (V3 0 0 0)%Q 9 in let ms := repeat ([] : list Q) 9 in
  mkApp (mkLV (mk vs) (mk (repeat (M3 (V3 0 0 0) (V3 0 0 0) (V3 0 0 0))%Q 9)))
    (mkLS (mk [0; 0; 0; 1; 0; 0; 0; 0; 0]%Q) (mk vs) (mk ms) (mk zs) (mk vs) (mk ms) (mk zs) (mk vs)) vel_map0.
Lemma rest_moves (TT : Trans Q) pos : exists (g : grid Q) (s s' : app_state (T := Q)),
  built Wrap 1 (V3 5 1 1)%Z 2 (V3 0 0 0)%Q (V3 5 1 1)%Q g /\ levelset_on g (ap_ls s) /\ velocity_on g (ap_vel s) /\
  (forall i, (0 <= i < 5)%Z -> aget Wrap g (lv_vel (ap_vel s)) i 0 0 = Ok (V3 0 0 0)%Q) /\
  app_iteration Wrap true g (mkVI "" [] [] "") pos 1%Q 1%Q s = Ok s' /\ ap_vel s' = ap_vel s /\
  aget Wrap g (ls_phi (ap_ls s)) 0 0 0 = Ok 0%Q /\ aget Wrap g (ls_phi (ap_ls s)) 1 0 0 = Ok 1%Q /\
  aget Wrap g (ls_phi (ap_ls s')) 0 0 0 = Ok (-4)%Q /\ aget Wrap g (ls_phi (ap_ls s')) 1 0 0 = Ok (Qmake 11 3).
Proof.
  destruct (make_grid Wrap 1 (V3 5 1 1)%Z 2 (V3 0 0 0)%Q (V3 5 1 1)%Q) as [g| | |] eqn:E; vm_compute in E; try discriminate E.
  injection E as <-. eexists. exists spike_state. eexists.
  split; [split; [exact good_1d2|split; [exact I|vm_compute; reflexivity]]|].
  split; [split; repeat split; cbn; repeat constructor|].
  split; [split; repeat split; cbn; repeat constructor|].
  split; [intros i Hi; assert (Ei : (i = 0 \/ i = 1 \/ i = 2 \/ i = 3 \/ i = 4)%Z) by lia; destruct Ei as [-> | [-> | [-> | [-> | ->]]]]; vm_compute; reflexivity|].
  split; [vm_compute; reflexivity|]. repeat (split; [vm_compute; reflexivity|]). vm_compute. reflexivity.
Qed.
