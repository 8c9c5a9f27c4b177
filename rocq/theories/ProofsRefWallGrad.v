(** The gradient of the exact level set on the walls of the swirling flow, and the one the programs keep there. *)
From Coq Require Import ZArith List String Reals Lra Lia.
From Coquelicot Require Import Coquelicot.
From Verif Require Import Base Num NumB64 ModelVec SpecGradient ModelRefMath ModelRefMem ModelRef SpecRef SpecRefRun SpecRefOrder SpecRefStep SpecRefSolve SpecRefExist
  ProofsRefMath ProofsRefHermite ProofsRefTrace ProofsRefReal ProofsRefMain ProofsRefFlows ProofsRefScale ProofsRefStepCases ProofsRefSolve ProofsRefSolveCases ProofsRefVariation ProofsRefExist ProofsRefReverse ProofsRefApi.
Open Scope R_scope.

Lemma sin_lip a b : Rabs (sin a - sin b) <= Rabs (a - b).
Proof.
  destruct (MVT_gen sin b a cos) as (c & _ & E).
  - intros t _. apply is_derive_Reals, derivable_pt_lim_sin.
  - intros t _. apply continuity_sin.
  - rewrite E, Rabs_mult. rewrite <- (Rmult_1_l (Rabs (a - b))) at 2. apply Rmult_le_compat_r; [apply Rabs_pos|]. apply Rabs_le, COS_bound.
Qed.
(** the four walls: trigonometry *)
Lemma wall_trig x : x = 0 \/ x = 1 -> sin (PI * x) = 0 /\ sin (2 * PI * x) = 0 /\ cos (2 * PI * x) = 1.
Proof. intros [->| ->]; rewrite ?Rmult_0_r, ?Rmult_1_r, ?sin_0, ?cos_0, ?sin_PI, ?sin_2PI, ?cos_2PI; auto. Qed.
Definition swing (Tp s : R) : R := 2 * Tp * sin (PI * s / Tp).
Lemma swing_d Tp s : Tp <> 0 -> derivable_pt_lim (swing Tp) s (2 * PI * cos (PI * s / Tp)).
Proof.
  intros HT. assert (E : derivable_pt_lim (fun s => PI * s / Tp) s (PI / Tp)) by (apply is_derive_Reals; auto_derive; [exact I|field; exact HT]).
  eapply ProofsTaylor.d_eq; [apply derivable_pt_lim_mult; [apply derivable_pt_lim_const|exact (derivable_pt_lim_comp _ _ _ _ _ E (derivable_pt_lim_sin _))]|]. cbv beta. field. exact HT.
Qed.
Lemma swing_short Tp K lo hi r : Tp <> 0 -> 2 * PI <= K -> lo <= r <= hi -> 1 * K * (hi - lo) <= 1 / 4 -> Rabs (swing Tp hi - swing Tp r) <= 1.
Proof.
  intros HT HK Hr HL. unfold swing. replace (2 * Tp * sin (PI * hi / Tp) - 2 * Tp * sin (PI * r / Tp)) with (2 * Tp * (sin (PI * hi / Tp) - sin (PI * r / Tp))) by ring.
  rewrite Rabs_mult. apply Rle_trans with (Rabs (2 * Tp) * Rabs (PI * hi / Tp - PI * r / Tp)); [apply Rmult_le_compat_l; [apply Rabs_pos|apply sin_lip]|].
  rewrite <- Rabs_mult. replace (2 * Tp * (PI * hi / Tp - PI * r / Tp)) with (2 * PI * (hi - r)) by (field; exact HT). pose proof PI_RGT_0.
  rewrite Rabs_pos_eq by (apply Rmult_le_pos; lra). apply Rle_trans with (K * (hi - lo)); [apply Rmult_le_compat; lra|lra].
Qed.
(** one short stretch of time *)
Lemma wall_x_short Tp K lo hi u x y a b lx ly : Tp <> 0 -> 2 * PI <= K -> Rabs (PI / Tp) <= K -> lo <= hi -> 1 * K * (hi - lo) <= 1 / 4 -> x = 0 \/ x = 1 ->
  solves vortex Tp lo hi u -> differentiable_pt_lim (fun x y => u x y lo) x y a b -> differentiable_pt_lim (fun x y => u x y hi) x y lx ly ->
  lx = a + b * (sin (PI * y) ^ 2 * (swing Tp hi - swing Tp lo)) /\ ly = b.
Proof.
  intros HT HK HK' Hlh HL Hx Hu D0 D1. pose proof (vortex_graded 2 Tp K HK HK') as HV. destruct (wall_trig x Hx) as (S1 & S2 & C2).
  assert (HF : follows vortex Tp lo hi (fun _ => x) (fun _ => y)).
  { intros s _. cbn [vortex Velx Vely]. unfold sqr. nr. rewrite S1, S2. split; (eapply ProofsTaylor.d_eq; [apply derivable_pt_lim_const|ring]). }
  assert (SB : 0 <= sin (PI * y) ^ 2 <= 1) by (pose proof (SIN_bound (PI * y)); split; nra).
  assert (V1 : varies vortex Tp lo hi (fun _ => x) (fun _ => y) (fun _ => 1) (fun s => sin (PI * y) ^ 2 * (swing Tp hi - swing Tp s)) 1 0).
  { split; [reflexivity|]. split; [ring|]. intros s Hs. cbn [vortex gradUx gradUy gradVx gradVy]. unfold sqr. nr. rewrite S1, S2, C2. split; [|split; [|split]].
    - eapply ProofsTaylor.d_eq; [apply derivable_pt_lim_const|ring].
    - eapply ProofsTaylor.d_eq; [apply derivable_pt_lim_mult; [apply derivable_pt_lim_const|apply derivable_pt_lim_minus; [apply derivable_pt_lim_const|apply swing_d, HT]]|]. cbv beta. ring.
    - rewrite Rabs_pos_eq; lra.
    - pose proof (swing_short Tp K lo hi s HT HK Hs HL) as B. rewrite Rabs_mult, (Rabs_pos_eq (sin (PI * y) ^ 2)) by lra. pose proof (Rabs_pos (swing Tp hi - swing Tp s)). nra. }
  assert (V2 : varies vortex Tp lo hi (fun _ => x) (fun _ => y) (fun _ => 0) (fun _ => 1) 0 1).
  { split; [reflexivity|]. split; [reflexivity|]. intros s Hs. cbn [vortex gradUx gradUy gradVx gradVy]. unfold sqr. nr. rewrite S1, S2, C2. split; [|split; [|split]].
    - eapply ProofsTaylor.d_eq; [apply derivable_pt_lim_const|ring].
    - eapply ProofsTaylor.d_eq; [apply derivable_pt_lim_const|ring].
    - rewrite Rabs_R0; lra.
    - rewrite Rabs_pos_eq; lra. }
  assert (B1 : Rabs 1 <= 1) by (rewrite Rabs_R1; lra). assert (B0 : Rabs 0 <= 1) by (rewrite Rabs_R0; lra).
  pose proof (flow_slopes vortex Tp 1 K lo hi u x y _ _ a b lx ly _ _ 1 0 HV (vortex_true Tp) Hlh HL Hu HF eq_refl eq_refl V1 D0 D1 B1 B0) as E1.
  pose proof (flow_slopes vortex Tp 1 K lo hi u x y _ _ a b lx ly _ _ 0 1 HV (vortex_true Tp) Hlh HL Hu HF eq_refl eq_refl V2 D0 D1 B0 B1) as E2. cbv beta in E1, E2. lra.
Qed.
Lemma wall_y_short Tp K lo hi u x y a b lx ly : Tp <> 0 -> 2 * PI <= K -> Rabs (PI / Tp) <= K -> lo <= hi -> 1 * K * (hi - lo) <= 1 / 4 -> y = 0 \/ y = 1 ->
  solves vortex Tp lo hi u -> differentiable_pt_lim (fun x y => u x y lo) x y a b -> differentiable_pt_lim (fun x y => u x y hi) x y lx ly ->
  lx = a /\ ly = b - a * (sin (PI * x) ^ 2 * (swing Tp hi - swing Tp lo)).
Proof.
  intros HT HK HK' Hlh HL Hx Hu D0 D1. pose proof (vortex_graded 2 Tp K HK HK') as HV. destruct (wall_trig y Hx) as (S1 & S2 & C2).
  assert (HF : follows vortex Tp lo hi (fun _ => x) (fun _ => y)).
  { intros s _. cbn [vortex Velx Vely]. unfold sqr. nr. rewrite S1, S2. split; (eapply ProofsTaylor.d_eq; [apply derivable_pt_lim_const|ring]). }
  assert (SB : 0 <= sin (PI * x) ^ 2 <= 1) by (pose proof (SIN_bound (PI * x)); split; nra).
  assert (V1 : varies vortex Tp lo hi (fun _ => x) (fun _ => y) (fun _ => 1) (fun _ => 0) 1 0).
  { split; [reflexivity|]. split; [reflexivity|]. intros s Hs. cbn [vortex gradUx gradUy gradVx gradVy]. unfold sqr. nr. rewrite S1, S2, C2. split; [|split; [|split]].
    - eapply ProofsTaylor.d_eq; [apply derivable_pt_lim_const|ring].
    - eapply ProofsTaylor.d_eq; [apply derivable_pt_lim_const|ring].
    - rewrite Rabs_pos_eq; lra.
    - rewrite Rabs_R0; lra. }
  assert (V2 : varies vortex Tp lo hi (fun _ => x) (fun _ => y) (fun s => - (sin (PI * x) ^ 2 * (swing Tp hi - swing Tp s))) (fun _ => 1) 0 1).
  { split; [ring|]. split; [reflexivity|]. intros s Hs. cbn [vortex gradUx gradUy gradVx gradVy]. unfold sqr. nr. rewrite S1, S2, C2. split; [|split; [|split]].
    - eapply ProofsTaylor.d_eq; [apply derivable_pt_lim_opp; apply derivable_pt_lim_mult; [apply derivable_pt_lim_const|apply derivable_pt_lim_minus; [apply derivable_pt_lim_const|apply swing_d, HT]]|]. cbv beta. ring.
    - eapply ProofsTaylor.d_eq; [apply derivable_pt_lim_const|ring].
    - pose proof (swing_short Tp K lo hi s HT HK Hs HL) as B. rewrite Rabs_Ropp, Rabs_mult, (Rabs_pos_eq (sin (PI * x) ^ 2)) by lra. pose proof (Rabs_pos (swing Tp hi - swing Tp s)). nra.
    - rewrite Rabs_pos_eq; lra. }
  assert (B1 : Rabs 1 <= 1) by (rewrite Rabs_R1; lra). assert (B0 : Rabs 0 <= 1) by (rewrite Rabs_R0; lra).
  pose proof (flow_slopes vortex Tp 1 K lo hi u x y _ _ a b lx ly _ _ 1 0 HV (vortex_true Tp) Hlh HL Hu HF eq_refl eq_refl V1 D0 D1 B1 B0) as E1.
  pose proof (flow_slopes vortex Tp 1 K lo hi u x y _ _ a b lx ly _ _ 0 1 HV (vortex_true Tp) Hlh HL Hu HF eq_refl eq_refl V2 D0 D1 B0 B1) as E2. cbv beta in E1, E2. lra.
Qed.
(** any stretch of time *)
Lemma solves_sub F Tp lo hi lo' hi' u : lo <= lo' -> hi' <= hi -> solves F Tp lo hi u -> solves F Tp lo' hi' u.
Proof. intros A B (ux & uy & us & D & E). exists ux, uy, us. split; [exact D|]. intros x y s Hs. apply E. lra. Qed.
Lemma wall_x_steps Tp K u x y lo : Tp <> 0 -> 2 * PI <= K -> Rabs (PI / Tp) <= K -> x = 0 \/ x = 1 -> forall n hi a b lx ly, lo <= hi -> 1 * K * (hi - lo) <= INR n / 4 ->
  solves vortex Tp lo hi u -> differentiable_pt_lim (fun x y => u x y lo) x y a b -> differentiable_pt_lim (fun x y => u x y hi) x y lx ly ->
  lx = a + b * (sin (PI * y) ^ 2 * (swing Tp hi - swing Tp lo)) /\ ly = b.
Proof.
  intros HT HK HK' Hx. induction n as [|n IH]; intros hi a b lx ly Hlh HL Hu D0 D1.
  - cbn [INR] in HL. apply (wall_x_short Tp K lo hi u x y); auto. lra.
  - rewrite S_INR in HL. assert (PK : 0 < K) by (pose proof PI_RGT_0; lra). destruct (Rle_dec (1 * K * (hi - lo)) (1 / 4)) as [L|L]; [apply (wall_x_short Tp K lo hi u x y); auto|].
    set (mid := hi - / (4 * K)). assert (P : 0 < / (4 * K)) by (apply Rinv_0_lt_compat; lra). assert (Q : K * / (4 * K) = 1 / 4) by (field; lra).
    assert (M : lo <= mid <= hi). { split; [|unfold mid; lra]. unfold mid. apply Rmult_le_reg_l with K; [exact PK|]. nra. }
    pose proof Hu as (ux & uy & us & D & _). pose proof (diff3_plane _ _ _ _ x y mid D) as Dm.
    destruct (IH mid a b _ _ (proj1 M) ltac:(unfold mid; nra) (solves_sub _ _ _ _ _ _ _ (Rle_refl _) (proj2 M) Hu) D0 Dm) as (E1 & E2).
    destruct (wall_x_short Tp K mid hi u x y _ _ lx ly HT HK HK' (proj2 M) ltac:(unfold mid; nra) Hx (solves_sub _ _ _ _ _ _ _ (proj1 M) (Rle_refl _) Hu) Dm D1) as (E3 & E4).
    rewrite E3, E4, E1, E2. split; ring.
Qed.
Lemma wall_y_steps Tp K u x y lo : Tp <> 0 -> 2 * PI <= K -> Rabs (PI / Tp) <= K -> y = 0 \/ y = 1 -> forall n hi a b lx ly, lo <= hi -> 1 * K * (hi - lo) <= INR n / 4 ->
  solves vortex Tp lo hi u -> differentiable_pt_lim (fun x y => u x y lo) x y a b -> differentiable_pt_lim (fun x y => u x y hi) x y lx ly ->
  lx = a /\ ly = b - a * (sin (PI * x) ^ 2 * (swing Tp hi - swing Tp lo)).
Proof.
  intros HT HK HK' Hx. induction n as [|n IH]; intros hi a b lx ly Hlh HL Hu D0 D1.
  - cbn [INR] in HL. apply (wall_y_short Tp K lo hi u x y); auto. lra.
  - rewrite S_INR in HL. assert (PK : 0 < K) by (pose proof PI_RGT_0; lra). destruct (Rle_dec (1 * K * (hi - lo)) (1 / 4)) as [L|L]; [apply (wall_y_short Tp K lo hi u x y); auto|].
    set (mid := hi - / (4 * K)). assert (P : 0 < / (4 * K)) by (apply Rinv_0_lt_compat; lra). assert (Q : K * / (4 * K) = 1 / 4) by (field; lra).
    assert (M : lo <= mid <= hi). { split; [|unfold mid; lra]. unfold mid. apply Rmult_le_reg_l with K; [exact PK|]. nra. }
    pose proof Hu as (ux & uy & us & D & _). pose proof (diff3_plane _ _ _ _ x y mid D) as Dm.
    destruct (IH mid a b _ _ (proj1 M) ltac:(unfold mid; nra) (solves_sub _ _ _ _ _ _ _ (Rle_refl _) (proj2 M) Hu) D0 Dm) as (E1 & E2).
    destruct (wall_y_short Tp K mid hi u x y _ _ lx ly HT HK HK' (proj2 M) ltac:(unfold mid; nra) Hx (solves_sub _ _ _ _ _ _ _ (proj1 M) (Rle_refl _) Hu) Dm D1) as (E3 & E4).
    rewrite E3, E4, E1, E2. split; ring.
Qed.
Lemma wall_n K lo hi : exists n, 1 * K * (hi - lo) <= INR n / 4.
Proof.
  destruct (archimed (4 * (1 * K * (hi - lo)))) as (A & _). exists (Z.to_nat (up (4 * (1 * K * (hi - lo))))). rewrite INR_IZR_INZ.
  apply Rle_trans with (IZR (up (4 * (1 * K * (hi - lo)))) / 4); [lra|]. apply Rmult_le_compat_r; [lra|]. apply IZR_le. lia.
Qed.
Lemma wall_x Tp lo hi u x y a b lx ly : Tp <> 0 -> lo <= hi -> x = 0 \/ x = 1 -> solves vortex Tp lo hi u ->
  differentiable_pt_lim (fun x y => u x y lo) x y a b -> differentiable_pt_lim (fun x y => u x y hi) x y lx ly ->
  lx = a + 2 * Tp * (sin (PI * hi / Tp) - sin (PI * lo / Tp)) * sin (PI * y) ^ 2 * b /\ ly = b.
Proof.
  intros HT Hlh Hx Hu D0 D1. set (K := Rmax (2 * PI) (Rabs (PI / Tp))). destruct (wall_n K lo hi) as (n & Hn).
  destruct (wall_x_steps Tp K u x y lo HT (Rmax_l _ _) (Rmax_r _ _) Hx n hi a b lx ly Hlh Hn Hu D0 D1) as (-> & ->). unfold swing. split; ring.
Qed.
Lemma wall_y Tp lo hi u x y a b lx ly : Tp <> 0 -> lo <= hi -> y = 0 \/ y = 1 -> solves vortex Tp lo hi u ->
  differentiable_pt_lim (fun x y => u x y lo) x y a b -> differentiable_pt_lim (fun x y => u x y hi) x y lx ly ->
  lx = a /\ ly = b - 2 * Tp * (sin (PI * hi / Tp) - sin (PI * lo / Tp)) * sin (PI * x) ^ 2 * a.
Proof.
  intros HT Hlh Hx Hu D0 D1. set (K := Rmax (2 * PI) (Rabs (PI / Tp))). destruct (wall_n K lo hi) as (n & Hn).
  destruct (wall_y_steps Tp K u x y lo HT (Rmax_l _ _) (Rmax_r _ _) Hx n hi a b lx ly Hlh Hn Hu D0 D1) as (-> & ->). unfold swing. split; ring.
Qed.
(** the value stays *)
Lemma wall_value Tp lo hi u x y : lo <= hi -> x = 0 \/ x = 1 \/ y = 0 \/ y = 1 -> solves vortex Tp lo hi u -> u x y hi = u x y lo.
Proof.
  intros Hlh Hw Hu. apply (carried vortex Tp lo hi u (fun _ => x) (fun _ => y) Hlh Hu).
  intros s _. cbn [vortex Velx Vely]. unfold sqr. nr.
  assert (W : (x = 0 \/ x = 1) \/ (y = 0 \/ y = 1)) by tauto.
  destruct W as [W|W]; destruct (wall_trig _ W) as (-> & -> & _); (split; (eapply ProofsTaylor.d_eq; [apply derivable_pt_lim_const|ring])).
Qed.
(** where the wall nodes are *)
Lemma last_node n (lo hi : R) : (3 <= n < 4294967296)%Z -> even_nodes lo ((hi - lo) / nofZ (u32 (n - 1)))%num (n - 1) = hi.
Proof.
  intros Hn. unfold even_nodes. replace (u32 (n - 1)) with (n - 1)%Z by (unfold u32; rewrite Z.mod_small; [reflexivity|lia]). nr.
  assert (N : IZR (n - 1) <> 0) by (apply IZR_neq; lia). field. exact N.
Qed.
Lemma wall_node_x s j : proper s -> unit_square s -> (j = 0 \/ j = s_nx s - 1)%Z -> node_x s j = 0 \/ node_x s j = 1.
Proof.
  intros P (U1 & U2 & _) [->| ->]; [left; unfold node_x, even_nodes; rewrite U1; nr; ring|right]. rewrite <- U2. destruct P as (P & _). exact (last_node (s_nx s) (s_xlim1 s) (s_xlim2 s) P).
Qed.
Lemma wall_node_y s i : proper s -> unit_square s -> (i = 0 \/ i = s_ny s - 1)%Z -> node_y s i = 0 \/ node_y s i = 1.
Proof.
  intros P (_ & _ & U1 & U2) [->| ->]; [left; unfold node_y, even_nodes; rewrite U1; nr; ring|right]. rewrite <- U2. destruct P as (_ & P & _). exact (last_node (s_ny s) (s_ylim1 s) (s_ylim2 s) P).
Qed.
(** the run *)
Lemma initialize_slopes x y a b : differentiable_pt_lim initialize x y a b -> a = derivxinit x y /\ b = derivyinit x y.
Proof.
  intros H. destruct (differentiable_pt_lim_unique _ _ _ _ _ H) as (<- & <-). destruct (initialize_derive x y) as (D1 & D2 & _). split; apply is_derive_unique, is_derive_Reals; assumption.
Qed.
Lemma run_walls whole s k u i j : proper s -> unit_square s -> 0 <= s_dt s -> s_Tp s <> 0 ->
  solves vortex (s_Tp s) 0 (INR k * s_dt s) u -> (forall x y, u x y 0 = initialize x y) ->
  (0 <= i < s_ny s)%Z -> (0 <= j < s_nx s)%Z -> (i = 0 \/ i = s_ny s - 1 \/ j = 0 \/ j = s_nx s - 1)%Z ->
  let x := node_x s j in let y := node_y s i in let q := 2 * s_Tp s * sin (PI * (INR k * s_dt s) / s_Tp s) in
  exists m0 m gx gy ux uy, setup s = Ok m0 /\ steps whole vortex s k m0 = Ok m /\
    m (MPhi, i, j) = Some (ModelRefMem.D (u x y (INR k * s_dt s))) /\ m (MPsix, i, j) = Some (ModelRefMem.D gx) /\ m (MPsiy, i, j) = Some (ModelRefMem.D gy) /\
    gx = derivxinit x y /\ gy = derivyinit x y /\
    differentiable_pt_lim (fun x y => u x y (INR k * s_dt s)) x y ux uy /\
    ((j = 0 \/ j = s_nx s - 1)%Z -> gy = uy /\ ux - gx = q * sin (PI * y) ^ 2 * gy) /\
    ((i = 0 \/ i = s_ny s - 1)%Z -> gx = ux /\ uy - gy = - q * sin (PI * x) ^ 2 * gx).
Proof.
  intros P U Hdt HT Hu H0 Hi Hj Hb x y q. destruct (setup_ok s) as (m0 & S0 & S1 & S2 & _).
  destruct (steps_wall whole s k _ m0 i j P U S1 S2 Hi Hj Hb) as (m & R & E1 & E2 & E3). pose proof S2 as (_ & _ & _ & _ & B1 & B2 & B3 & _).
  rewrite (B1 i j Hi Hj) in E1. rewrite (B2 i j Hi Hj) in E2. rewrite (B3 i j Hi Hj) in E3. cbn [initial f_phi f_x f_y] in E1, E2, E3.
  assert (Hlh : 0 <= INR k * s_dt s) by (apply Rmult_le_pos; [apply pos_INR|exact Hdt]).
  assert (W : x = 0 \/ x = 1 \/ y = 0 \/ y = 1).
  { destruct Hb as [B|[B|B]].
    - destruct (wall_node_y s i P U (or_introl B)); tauto.
    - destruct (wall_node_y s i P U (or_intror B)); tauto.
    - destruct (wall_node_x s j P U B); tauto. }
  pose proof Hu as (fx & fy & fs & Df & _). pose proof (diff3_plane _ _ _ _ x y (INR k * s_dt s) Df) as D1.
  pose proof (diff3_plane _ _ _ _ x y 0 Df) as D0.
  assert (D0' : differentiable_pt_lim initialize x y (fx x y 0) (fy x y 0)).
  { eapply differentiable_pt_lim_ext; [|exact D0]. exists (mkposreal 1 Rlt_0_1). intros p r _ _. apply H0. }
  destruct (initialize_slopes _ _ _ _ D0') as (Ea & Eb).
  exists m0, m, (derivxinit x y), (derivyinit x y), (fx x y (INR k * s_dt s)), (fy x y (INR k * s_dt s)).
  split; [exact S0|]. split; [exact R|]. split; [rewrite E1, (wall_value _ _ _ _ x y Hlh W Hu), H0; reflexivity|]. split; [exact E2|]. split; [exact E3|].
  split; [reflexivity|]. split; [reflexivity|]. split; [exact D1|].
  assert (Z0 : sin (PI * 0 / s_Tp s) = 0) by (rewrite Rmult_0_r; unfold Rdiv; rewrite Rmult_0_l; apply sin_0).
  split; intros B.
  - destruct (wall_x _ _ _ _ x y _ _ _ _ HT Hlh (wall_node_x s j P U B) Hu D0 D1) as (Q1 & Q2). rewrite Q1, Q2, Ea, Eb, Z0. unfold q. split; ring.
  - destruct (wall_y _ _ _ _ x y _ _ _ _ HT Hlh (wall_node_y s i P U B) Hu D0 D1) as (Q1 & Q2). rewrite Q1, Q2, Ea, Eb, Z0. unfold q. split; ring.
Qed.
(** the settings of the program, half a period: the middle of the left wall *)
Lemma walls_gals : exists u m0 m gx ux uy, (forall lo hi, solves vortex (s_Tp gals_s) lo hi u) /\ (forall x y, u x y 0 = initialize x y) /\
  setup gals_s = Ok m0 /\ steps true vortex gals_s 128 m0 = Ok m /\ m (MPsix, 64%Z, 0%Z) = Some (ModelRefMem.D gx) /\
  differentiable_pt_lim (fun x y => u x y (1 / 2)) 0 (64 / 127) ux uy /\ 1 / 2 < ux - gx.
Proof.
  destruct solve_case_vortex as (P & U & _ & Hdt & _). destruct (vortex_solution 1 initialize 0 ltac:(lra) initialize_differentiable) as (u & H1 & H2 & _).
  assert (HT : s_Tp gals_s <> 0) by exact R1_neq_R0.
  destruct (run_walls true gals_s 128 u 64 0 P U Hdt HT (H1 _ _) H2 ltac:(cbn [s_ny gals_s]; lia) ltac:(cbn [s_nx gals_s]; lia) ltac:(tauto)) as (m0 & m & gx & gy & ux & uy & S0 & R & _ & G1 & _ & Ex & Ey & D1 & B & _).
  assert (NX : node_x gals_s 0 = 0) by (unfold node_x, even_nodes; cbn [s_xlim1 gals_s]; nr; ring).
  assert (NY : node_y gals_s 64 = 64 / 127).
  { unfold node_y, even_nodes, s_dy. cbn [s_ylim1 s_ylim2 s_ny gals_s]. nr. change (u32 (128 - 1)) with 127%Z. lra. }
  assert (T1 : INR 128 * s_dt gals_s = 1 / 2) by (rewrite INR_IZR_INZ; change (Z.of_nat 128) with 128%Z; cbn [s_dt gals_s]; lra).
  destruct (B (or_introl eq_refl)) as (_ & E). rewrite NX, NY in *. rewrite T1 in *. cbn [s_Tp gals_s] in *.
  exists u, m0, m, gx, ux, uy. split; [exact H1|]. split; [exact H2|]. split; [exact S0|]. split; [exact R|]. split; [exact G1|]. split; [exact D1|].
  rewrite E, Ey. replace (PI * (1 / 2) / 1) with (PI / 2) by field. rewrite sin_PI2.
  assert (Sn : sin (PI * (64 / 127)) = cos (PI / 254)) by (rewrite <- (sin_shift (PI / 254)), <- sin_PI_x; f_equal; field).
  assert (Cl : 99 / 100 <= cos (PI / 254)).
  { pose proof PI_4. pose proof PI_RGT_0. destruct (cos_bound (PI / 254) 0) as (L & _); [lra|lra|]. eapply Rle_trans; [|exact L].
    unfold cos_approx, cos_term. cbn [sum_f_R0 Nat.mul Nat.add pow fact INR]. assert (PI / 254 <= 1 / 50) by lra. assert (0 <= PI / 254) by lra.
    change (2 * 1)%nat with 2%nat. cbn. nra. }
  assert (Ex1 : 68 / 100 <= bump 0 (64 / 127)).
  { unfold bump, init_xo, init_yo, sqr. nr. eapply Rle_trans; [|left; apply exp_ineq1]; lra. }
  unfold derivyinit, init_yo. nr. rewrite Sn. assert (98 / 100 <= cos (PI / 254) ^ 2) by nra. set (c := cos (PI / 254) ^ 2) in *. set (e := bump 0 (64 / 127)) in *. nra.
Qed.
Lemma wall_exact Tp lo hi u x y a b lx ly : Tp <> 0 -> lo <= hi -> solves vortex Tp lo hi u ->
  differentiable_pt_lim (fun x y => u x y lo) x y a b -> differentiable_pt_lim (fun x y => u x y hi) x y lx ly ->
  let q := 2 * Tp * (sin (PI * hi / Tp) - sin (PI * lo / Tp)) in
  (x = 0 \/ x = 1 -> u x y hi = u x y lo /\ lx = a + q * sin (PI * y) ^ 2 * b /\ ly = b) /\
  (y = 0 \/ y = 1 -> u x y hi = u x y lo /\ lx = a /\ ly = b - q * sin (PI * x) ^ 2 * a).
Proof.
  intros HT Hlh Hu D0 D1 q. split; intros W.
  - split; [apply (wall_value Tp lo hi u x y Hlh); [tauto|exact Hu]|]. exact (wall_x Tp lo hi u x y a b lx ly HT Hlh W Hu D0 D1).
  - split; [apply (wall_value Tp lo hi u x y Hlh); [tauto|exact Hu]|]. exact (wall_y Tp lo hi u x y a b lx ly HT Hlh W Hu D0 D1).
Qed.
Lemma walls_case : proper gals_s /\ unit_square gals_s /\ 0 <= s_dt gals_s /\ s_Tp gals_s <> 0 /\
  exists u, (forall lo hi, solves vortex (s_Tp gals_s) lo hi u) /\ forall x y, u x y 0 = initialize x y.
Proof.
  destruct solve_case_vortex as (P & U & _ & Hdt & _). destruct (vortex_solution 1 initialize 0 ltac:(lra) initialize_differentiable) as (u & H1 & H2 & _).
  split; [exact P|]. split; [exact U|]. split; [exact Hdt|]. split; [exact R1_neq_R0|]. exists u. split; [exact H1|exact H2].
Qed.
