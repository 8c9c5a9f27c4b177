(** One time step of the reference programs in double arithmetic, compared with the exact solution. *)
From Coq Require Import ZArith List Bool String Lia Reals Lra.
From Flocq Require Import Core BinarySingleNaN.
From Verif Require Import Base Num NumB64 ModelVec ModelGrid ModelRefMath ModelRefMem ModelRef SpecGrid SpecB64 SpecRound SpecRef SpecRefRun SpecRefOrder SpecRefStep SpecRefRound SpecRefTraceRound SpecRefStepRound
  ProofsBase ProofsGridProps ProofsB64 ProofsB64Ops ProofsRound ProofsRefMath ProofsRefMem ProofsRefRun ProofsRefUpd ProofsRefSearch ProofsRefStep ProofsRefApi ProofsRefReal ProofsRefExact ProofsRefStepErr ProofsRefRound ProofsRefTraceRound ProofsRefTraceRoundCases.
Import ListNotations.
Open Scope R_scope.

(** *** comparisons *)
Lemma between lo v hi : is_finite lo = true -> is_finite hi = true -> Bltb lo v = true -> Bltb v hi = true -> is_finite v = true /\ inside (real lo) (real hi) (real v).
Proof.
  intros Fl Fh H1 H2. assert (Fv : is_finite v = true).
  { destruct v as [s|[]| |s m e B]; try reflexivity; exfalso.
    - destruct lo; cbn in Fl, H1; try discriminate; destruct s; discriminate.
    - destruct hi as [s|[]| |s m e B]; cbn in Fh, H2; try discriminate; destruct s; discriminate.
    - destruct lo; cbn in H1; discriminate. }
  split; [exact Fv|]. rewrite Bltb_correct in H1, H2 by assumption. unfold inside, real.
  split; [destruct (Rlt_bool_spec (B2R lo) (B2R v)); [assumption|discriminate]|destruct (Rlt_bool_spec (B2R v) (B2R hi)); [assumption|discriminate]].
Qed.
Lemma ltb_lt a b : is_finite a = true -> is_finite b = true -> real a < real b -> Bltb a b = true.
Proof. intros Fa Fb H. rewrite Bltb_correct by assumption. apply Rlt_bool_true. exact H. Qed.
Lemma lower64 l v : Forall (fun a => is_finite a = true) l -> is_finite v = true -> lower_bound l v = lower_bound (map real l) (real v).
Proof.
  intros H Fv. induction H as [|a l Ha Hl IH]; [reflexivity|]. cbn [lower_bound map]. rewrite IH.
  change (a <? v)%num with (Bltb a v). rewrite Bltb_correct by assumption. change (real a <? real v)%num with (Rltb (real a) (real v)).
  unfold Rltb, real. destruct (Rlt_bool_spec (B2R a) (B2R v)), (Rlt_dec (B2R a) (B2R v)); try reflexivity; lra.
Qed.
Lemma locate64 n lo hi d x x' h v : exact_axis n lo hi d x x' h -> (2 <= n < 4294967296)%Z -> sorted_nodes n x' (real lo) (real hi) ->
  Bltb lo v = true -> Bltb v hi = true ->
  let c := locate (map x (range 0 n)) v in (0 <= c < n - 1)%Z /\ x' c < real v <= x' (c + 1)%Z.
Proof.
  intros (Fl & Fh & Hx & _) N Hs H1 H2 c. destruct (between _ _ _ Fl Fh H1 H2) as (Fv & Iv).
  assert (E : c = locate (map x' (range 0 n)) (real v)).
  { unfold c, locate. rewrite lower64; [|apply Forall_forall; intros a Ha; apply in_map_iff in Ha; destruct Ha as (j & <- & Hj); apply in_range in Hj; apply Hx; lia|exact Fv].
    rewrite map_map. do 2 f_equal. f_equal. apply map_ext_in. intros j Hj. apply in_range in Hj. apply Hx. lia. }
  rewrite E. apply (locate_in n x' (real lo) (real hi)); assumption.
Qed.

(** *** the step completes, whatever the velocity *)
Section Step.
Variables (whole : bool) (G : flow b64) (s : settings b64).
Notation r := (real_settings s).
Hypothesis Hs : proper r.
Hypothesis HE : exact_grid s.
Let nx := s_nx s.
Let ny := s_ny s.
Lemma cells_in t i j : let c := snd (where_ whole G s (node_x s) (node_y s) t i j) in (0 <= fst c < nx - 1)%Z /\ (0 <= snd c < ny - 1)%Z.
Proof.
  pose proof Hs as (N1 & N2 & _). cbn [real_settings s_nx s_ny] in N1, N2. destruct HE as (EX & EY). pose proof (sorted_x r Hs) as SX. pose proof (sorted_y r Hs) as SY.
  cbv zeta. unfold where_, found. cbn [fst snd]. set (p := foot _ _ _ _ _ _ _ _). destruct p as (xa, ya). cbn [fst snd].
  assert (LX : (s_xlim1 s <? xa)%num = true -> (xa <? s_xlim2 s)%num = true -> (0 <= locate (map (node_x s) (range 0 (s_nx s))) xa < nx - 1)%Z).
  { intros A B. apply (locate64 _ _ _ _ _ _ _ _ EX ltac:(lia) SX A B). }
  assert (LY : (s_ylim1 s <? ya)%num = true -> (ya <? s_ylim2 s)%num = true -> (0 <= locate (map (node_y s) (range 0 (s_ny s))) ya < ny - 1)%Z).
  { intros A B. apply (locate64 _ _ _ _ _ _ _ _ EY ltac:(lia) SY A B). }
  assert (U1 : u32 (s_nx s - 2) = (s_nx s - 2)%Z) by (apply u32_small; lia). assert (U2 : u32 (s_ny s - 2) = (s_ny s - 2)%Z) by (apply u32_small; lia).
  unfold nx, ny in *.
  destruct (s_xlim1 s <? xa)%num eqn:A1, (xa <? s_xlim2 s)%num eqn:A2, (s_ylim1 s <? ya)%num eqn:B1, (ya <? s_ylim2 s)%num eqn:B2; cbn [andb fst snd];
  try specialize (LX eq_refl eq_refl); try specialize (LY eq_refl eq_refl); rewrite ?U1, ?U2;
  repeat match goal with |- context [if ?b then _ else _] => destruct b end; cbn [fst snd]; lia.
Qed.
Lemma step64 t f m : nodes_at nx ny (node_x s) (node_y s) m -> contains nx ny f m ->
  exists m', step whole G s t m = Ok m' /\ nodes_at nx ny (node_x s) (node_y s) m' /\ contains nx ny (next whole G s (node_x s) (node_y s) t f) m'.
Proof.
  intros Hn Hc. pose proof Hs as (N1 & N2 & _). cbn [real_settings s_nx s_ny] in N1, N2.
  destruct (step_next whole G s (node_x s) (node_y s) t f m N1 N2 (fun i j _ _ => cells_in t i j) Hn Hc) as (m' & E & A & B & _). exists m'. auto.
Qed.
(** *** a node whose position is strictly inside the box *)
Lemma node64 t f i j : whole = true \/ (i < ny - 1 /\ j < nx - 1)%Z -> let p := back_trace G (s_rk3 s) (node_x s j) (node_y s i) t (s_dt s) (s_Tp s) in
  is_finite (fst p) = true -> is_finite (snd p) = true -> inside (s_xlim1 r) (s_xlim2 r) (real (fst p)) -> inside (s_ylim1 r) (s_ylim2 r) (real (snd p)) ->
  exists cx cy, (0 <= cx < nx - 1)%Z /\ (0 <= cy < ny - 1)%Z /\ node_x r cx < real (fst p) <= node_x r (cx + 1) /\ node_y r cy < real (snd p) <= node_y r (cy + 1) /\
    SpecRefRun.f_phi (next whole G s (node_x s) (node_y s) t f) i j =
    hp (quad_at (SpecRefRun.f_phi f) cy cx) (quad_at (f_x f) cy cx) (quad_at (f_y f) cy cx) (quad_at (f_xy f) cy cx) (fst p) (snd p) (node_x s cx) (node_y s cy)
      (node_x s 2 - node_x s 1)%num (node_y s 2 - node_y s 1)%num.
Proof.
  intros Hw p F1 F2 (X1 & X2) (Y1 & Y2). pose proof Hs as (N1 & N2 & _). cbn [real_settings s_nx s_ny] in N1, N2. destruct HE as (EX & EY).
  pose proof (sorted_x r Hs) as SX. pose proof (sorted_y r Hs) as SY. cbn [real_settings s_xlim1 s_xlim2 s_ylim1 s_ylim2] in X1, X2, Y1, Y2.
  pose proof EX as (FX1 & FX2 & _). pose proof EY as (FY1 & FY2 & _).
  pose proof (ltb_lt _ _ FX1 F1 X1) as A1. pose proof (ltb_lt _ _ F1 FX2 X2) as A2. pose proof (ltb_lt _ _ FY1 F2 Y1) as B1. pose proof (ltb_lt _ _ F2 FY2 Y2) as B2.
  destruct (locate64 _ _ _ _ _ _ _ _ EX ltac:(lia) SX A1 A2) as (C1 & C2). destruct (locate64 _ _ _ _ _ _ _ _ EY ltac:(lia) SY B1 B2) as (D1 & D2).
  exists (locate (map (node_x s) (range 0 (s_nx s))) (fst p)), (locate (map (node_y s) (range 0 (s_ny s))) (snd p)).
  split; [exact C1|]. split; [exact D1|]. split; [exact C2|]. split; [exact D2|].
  unfold next. cbn [SpecRefRun.f_phi]. unfold new_node, where_.
  assert (Ef : foot whole G s (node_x s) (node_y s) t i j = p).
  { unfold foot. replace (whole || ((i <? s_ny s - 1) && (j <? s_nx s - 1)))%bool with true; [reflexivity|]. unfold nx, ny in Hw. destruct whole; cbn; [reflexivity|]. destruct Hw; [discriminate|lia]. }
  rewrite Ef. unfold found. change (s_xlim1 s <? fst p)%num with (Bltb (s_xlim1 s) (fst p)). change (fst p <? s_xlim2 s)%num with (Bltb (fst p) (s_xlim2 s)).
  change (s_ylim1 s <? snd p)%num with (Bltb (s_ylim1 s) (snd p)). change (snd p <? s_ylim2 s)%num with (Bltb (snd p) (s_ylim2 s)).
  rewrite A1, A2, B1, B2. cbn [andb fst snd updated]. reflexivity.
Qed.
End Step.

Theorem step_origin64 : forall whole (G : flow b64) (F : flow R) s t f m D M e0 e1 e2 Mr eps X V K Ts c, let r := real_settings s in
  proper r -> exact_grid s -> box_within s X -> nodes_at (s_nx s) (s_ny s) (node_x s) (node_y s) m -> contains (s_nx s) (s_ny s) f m -> field_size s f Mr ->
  smooth2 D -> bounded_in_box r D M -> near_samples r D (real_fields f) e0 e1 e2 ->
  bpow radix2 (-53) <= eps <= / 4096 -> moderate X -> moderate V -> moderate Ts -> is_finite (s_dt s) = true -> moderate (real (s_dt s)) ->
  V * real (s_dt s) <= X -> step_number t -> (IZR t + 1) * real (s_dt s) <= Ts -> 0 < K -> c <= 32 -> K * X <= c -> K * Ts <= c ->
  flow_near64 G F (s_Tp s) V eps -> graded_velocity 3 V K F (s_Tp r) ->
  let lo := IZR t * s_dt r in let hi := (IZR t + 1) * s_dt r in let E := origin_bound (s_rk3 s) (s_dt r) V K + trace_factor (s_rk3 s) c * eps * X in
  exists m', step whole G s t m = Ok m' /\
    forall i j P Q, (0 <= i < s_ny s)%Z -> (0 <= j < s_nx s)%Z -> whole = true \/ (i < s_ny s - 1 /\ j < s_nx s - 1)%Z ->
      follows F (s_Tp r) lo hi P Q -> P hi = node_x r j -> Q hi = node_y r i ->
      inside (s_xlim1 r + E) (s_xlim2 r - E) (P lo) -> inside (s_ylim1 r + E) (s_ylim2 r - E) (Q lo) ->
      exists v, m' (MPhi, i, j) = Some (ModelRefMem.D v) /\ is_finite v = true /\
        Rabs (real v - D 0%nat 0%nat (P lo) (Q lo)) <= value_bound (s_dx r) (s_dy r) M e0 e1 e2 + (M 1%nat 0%nat + M 0%nat 1%nat) * E + bpow radix2 (-33) * Mr.
Proof.
  intros whole G F s t f m D M e0 e1 e2 Mr eps X V K Ts c r Hs HE HB HN Hf HZ SD HM Hd He HX HV HT Fdt Hdt CFL Ht HTs HK Hc HKX HKT Near Grd lo hi E.
  destruct (step64 whole G s Hs HE t f m HN Hf) as (m' & Es & _ & Hf'). exists m'. split; [exact Es|].
  intros i j P Q Hi Hj Hw HF HP HQ IX IY. pose proof HE as (EX & EY). pose proof EX as (_ & _ & NX & FdX & EdX & MdX). pose proof EY as (_ & _ & NY & FdY & EdY & MdY).
  fold r in NX, NY, EdX, EdY, MdX, MdY.
  destruct (NX j Hj) as (Fx & Ex). destruct (NY i Hi) as (Fy & Ey).
  destruct (sorted_x r Hs) as (SX1 & SX2 & SX3). destruct (sorted_y r Hs) as (SY1 & SY2 & SY3). cbn [real_settings s_nx s_ny r] in SX2, SX3, SY2, SY3.
  assert (LX : forall z, (0 <= z < s_nx s)%Z -> s_xlim1 r <= node_x r z <= s_xlim2 r).
  { intros z Hz. rewrite <- SX1, <- SX2. split.
    - destruct (Z.eq_dec z 0) as [->|]; [lra|left; apply SX3; lia].
    - destruct (Z.eq_dec z (s_nx s - 1)) as [->|]; [lra|left; apply SX3; lia]. }
  assert (LY : forall z, (0 <= z < s_ny s)%Z -> s_ylim1 r <= node_y r z <= s_ylim2 r).
  { intros z Hz. rewrite <- SY1, <- SY2. split.
    - destruct (Z.eq_dec z 0) as [->|]; [lra|left; apply SY3; lia].
    - destruct (Z.eq_dec z (s_ny s - 1)) as [->|]; [lra|left; apply SY3; lia]. }
  destruct HB as (B1 & B2 & B3 & B4). change (real (s_xlim1 s)) with (s_xlim1 r) in B1. change (real (s_xlim2 s)) with (s_xlim2 r) in B2.
  change (real (s_ylim1 s)) with (s_ylim1 r) in B3. change (real (s_ylim2 s)) with (s_ylim2 r) in B4.
  pose proof (LX j Hj) as LXj. pose proof (LY i Hi) as LYi.
  assert (Ax : Rabs (real (node_x s j)) <= X) by (rewrite Ex; apply Rabs_le; lra). assert (Ay : Rabs (real (node_y s i)) <= X) by (rewrite Ey; apply Rabs_le; lra).
  pose proof (origin64 G F (s_rk3 s) (node_x s j) (node_y s i) (s_dt s) (s_Tp s) t eps X V K Ts c P Q He HX HV HT Fdt Hdt Fx Fy Ax Ay CFL Ht HTs HK Hc HKX HKT Near Grd) as OR. cbv zeta in OR.
  change (real (s_dt s)) with (s_dt r) in OR. change (real (s_Tp s)) with (s_Tp r) in OR. fold lo hi in OR. specialize (OR HF). rewrite Ex, Ey in OR. specialize (OR HP HQ). fold E in OR.
  set (p := back_trace G (s_rk3 s) (node_x s j) (node_y s i) t (s_dt s) (s_Tp s)) in *. destruct OR as ((F1 & F2) & P1 & P2).
  unfold inside in IX, IY. pose proof (abs_both _ _ P1) as P1'. pose proof (abs_both _ _ P2) as P2'.
  assert (E0 : 0 <= E) by (eapply Rle_trans; [apply Rabs_pos|exact P1]).
  destruct (node64 whole G s Hs HE t f i j Hw F1 F2) as (cx & cy & Cx & Cy & CX & CY & EV).
  { unfold inside. fold p r. lra. } { unfold inside. fold p r. lra. } fold p r in CX, CY, EV.
  destruct Hf' as (_ & _ & _ & _ & A1 & _). eexists. split; [exact (A1 i j Hi Hj)|]. rewrite EV. clear A1 EV.
  assert (SX : forall z, node_x r (z + 1) = node_x r z + s_dx r) by (intros; apply even_succ). assert (SY : forall z, node_y r (z + 1) = node_y r z + s_dy r) by (intros; apply even_succ).
  pose proof (dx_pos r Hs) as Dx. pose proof (dy_pos r Hs) as Dy.
  pose proof (LX cx ltac:(lia)) as K1. pose proof (LX (cx + 1)%Z ltac:(lia)) as K2. pose proof (LY cy ltac:(lia)) as K3. pose proof (LY (cy + 1)%Z ltac:(lia)) as K4.
  rewrite SX in CX, K2. rewrite SY in CY, K4.
  destruct (NX cx ltac:(lia)) as (Fcx & Ecx). destruct (NY cy ltac:(lia)) as (Fcy & Ecy).
  assert (RX : within_reach (fst p) (node_x s cx) (node_x s 2 - node_x s 1)%num).
  { split; [exact F1|]. split; [exact Fcx|]. split; [exact FdX|]. rewrite EdX, Ecx. split; [exact MdX|]. apply Rabs_le. lra. }
  assert (RY : within_reach (snd p) (node_y s cy) (node_y s 2 - node_y s 1)%num).
  { split; [exact F2|]. split; [exact Fcy|]. split; [exact FdY|]. rewrite EdY, Ecy. split; [exact MdY|]. apply Rabs_le. lra. }
  destruct HZ as (MM & HZ). fold r in HZ.
  assert (CS : forall g w, (forall i j, (0 <= i < s_ny s)%Z -> (0 <= j < s_nx s)%Z -> is_finite (g i j) = true /\ Rabs (real (g i j)) * w <= Mr) -> corner_size w Mr (quad_at g cy cx)).
  { intros g w Hg z Hz. unfold quad_at in Hz. cbn [ModelRefMath.q0 ModelRefMath.q1 ModelRefMath.q2 ModelRefMath.q3] in Hz. destruct Hz as [->|[->|[->| ->]]]; apply Hg; lia. }
  assert (SZ : cell_size (quad_at (SpecRefRun.f_phi f) cy cx) (quad_at (f_x f) cy cx) (quad_at (f_y f) cy cx) (quad_at (f_xy f) cy cx)
    (real (node_x s 2 - node_x s 1)%num) (real (node_y s 2 - node_y s 1)%num) Mr).
  { rewrite EdX, EdY. split; [exact MM|]. split; [apply CS; intros a b Ha Hb; destruct (HZ a b Ha Hb) as (Z1 & Z2 & Z3 & Z4 & Z5 & Z6 & Z7 & Z8); split; [exact Z1|lra]|].
    split; [apply CS; intros a b Ha Hb; destruct (HZ a b Ha Hb) as (Z1 & Z2 & Z3 & Z4 & Z5 & Z6 & Z7 & Z8); split; assumption|].
    split; apply CS; intros a b Ha Hb; destruct (HZ a b Ha Hb) as (Z1 & Z2 & Z3 & Z4 & Z5 & Z6 & Z7 & Z8); split; assumption. }
  destruct (hp64 _ _ _ _ _ _ _ _ _ _ _ RX RY SZ) as (FV & AV). split; [exact FV|]. rewrite EdX, EdY, Ecx, Ecy in AV.
  set (v := hp (quad_at _ cy cx) _ _ _ (fst p) (snd p) _ _ _ _) in *. set (w := hp (qreals _) _ _ _ _ _ _ _ _ _) in AV.
  assert (CV : Rabs (w - D 0%nat 0%nat (real (fst p)) (real (snd p))) <= value_bound (s_dx r) (s_dy r) M e0 e1 e2).
  { unfold w. apply cell_value; try assumption.
    - intros a b u z Ha Hb Hu Hz. apply HM; auto; lra.
    - apply (Hd cy cx); cbn [real_settings s_nx s_ny r]; lia.
    - rewrite <- SX. apply (Hd cy (cx + 1)%Z); cbn [real_settings s_nx s_ny r]; lia.
    - rewrite <- SY. apply (Hd (cy + 1)%Z cx); cbn [real_settings s_nx s_ny r]; lia.
    - rewrite <- SX, <- SY. apply (Hd (cy + 1)%Z (cx + 1)%Z); cbn [real_settings s_nx s_ny r]; lia.
    - lra.
    - lra. }
  pose proof (box_lip D M r (real (fst p)) (real (snd p)) (P lo) (Q lo) E SD HM ltac:(lra) ltac:(lra) ltac:(lra) ltac:(lra) P1 P2) as BL.
  clearbody v w. generalize dependent (real v). intros rv AV.
  replace (rv - D 0%nat 0%nat (P lo) (Q lo)) with ((rv - w) + (w - D 0%nat 0%nat (real (fst p)) (real (snd p))) + (D 0%nat 0%nat (real (fst p)) (real (snd p)) - D 0%nat 0%nat (P lo) (Q lo))) by ring.
  eapply Rle_trans; [apply Rabs_triang|]. eapply Rle_trans; [apply Rplus_le_compat_r, Rabs_triang|]. lra.
Qed.
