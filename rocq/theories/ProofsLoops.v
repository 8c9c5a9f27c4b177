(** Loops over cells: what they write and what they leave alone. *)
From Coq Require Import ZArith List Lia Bool Permutation.
From Verif Require Import Base Num ModelVec ModelGrid ModelArray ModelInterp ModelGradient ModelTemporal
  SpecGrid SpecInterp ProofsBase ProofsGrid ProofsArray ProofsGridProps.
Open Scope Z_scope.

Lemma lupd_lupd {A} (l : list A) n x y : lupd (lupd l n x) n y = lupd l n y.
Proof. revert n; induction l as [|a l IH]; intros [|n]; cbn; auto. rewrite IH. reflexivity. Qed.

Section WithT.
Context {T : Type} {NT : Num T}.

Lemma loop_cells {A} ov (g : grid T) (F : cell -> A -> A) (body : array A -> cell -> outcome (array A)) cs a :
  okgrid ov g -> shaped g a -> NoDup cs -> (forall c, In c cs -> gcell g c) ->
  (forall s c x, shaped g s -> a_pad s = a_pad a -> In c cs -> peek g s c = Ok x ->
     body s c = Ok (poke g s c (F c x))) ->
  exists a', forM cs body a = Ok a' /\ shaped g a' /\ a_pad a' = a_pad a /\
    (forall c x, In c cs -> peek g a c = Ok x -> peek g a' c = Ok (F c x)) /\
    (forall c, gcell g c -> ~ In c cs -> peek g a' c = peek g a c).
Proof.
  intros Hg Ha Hnd HU Hb.
  destruct (forM_obs (gcell g) (fun s => shaped g s /\ a_pad s = a_pad a) (peek g)
      (fun c v => x <- v ;; Ok (F c x)) body cs a) as (a' & E & (G1 & G2) & H1 & H2); auto.
  - intros s c (Hs & Hp) Hc. destruct (peek_ok ov g s c Hg Hs (HU c Hc)) as (x & Ex).
    exists (poke g s c (F c x)). split; [apply Hb; auto|].
    split; [split; [apply poke_shaped; auto|exact Hp]|].
    rewrite (peek_poke_same ov) by auto. rewrite Ex. split; [reflexivity|].
    intros c' Hc' Hne. apply (peek_poke_other ov); auto.
  - exists a'. repeat split; auto; try apply G1. intros c x Hc Ex. rewrite H1 by auto. rewrite Ex. reflexivity.
Qed.

(** the order of the cells does not matter *)
Lemma loop_perm {A} ov (g : grid T) (F : cell -> A -> A) (body : array A -> cell -> outcome (array A)) cs cs' a :
  okgrid ov g -> shaped g a -> NoDup cs -> (forall c, In c cs -> gcell g c) -> Permutation cs cs' ->
  (forall s c x, shaped g s -> a_pad s = a_pad a -> In c cs -> peek g s c = Ok x ->
     body s c = Ok (poke g s c (F c x))) ->
  forM cs' body a = forM cs body a.
Proof.
  intros Hg Ha Hnd HU HP Hb.
  destruct (loop_cells ov g F body cs a) as (a1 & E1 & S1 & P1 & A1 & B1); auto.
  destruct (loop_cells ov g F body cs' a) as (a2 & E2 & S2 & P2 & A2 & B2); auto.
  - eapply Permutation_NoDup; eauto.
  - intros c Hc. apply HU. eapply Permutation_in; [apply Permutation_sym|]; eauto.
  - intros s c x Hs Hp Hc. apply Hb; auto. eapply Permutation_in; [apply Permutation_sym|]; eauto.
  - rewrite E1, E2. f_equal. apply (peek_ext ov g); auto; [congruence|].
    intros c Hc. destruct (peek_ok ov g a c Hg Ha Hc) as (x & Ex).
    destruct (in_dec (fun c d : cell => ltac:(decide equality; [apply Z.eq_dec|decide equality; apply Z.eq_dec])) c cs) as [i|i].
    + rewrite (A1 c x i Ex). apply A2; auto. eapply Permutation_in; eauto.
    + rewrite B1 by auto. apply B2; auto. intros Hi; apply i. eapply Permutation_in; [apply Permutation_sym|]; eauto.
Qed.

(** ** Interpolate::compute *)
Lemma interpolate_prev ov (g : grid T) x (l l' : levelset T) lim :
  ls_phi_prev l = ls_phi_prev l' -> ls_psi_prev l = ls_psi_prev l' -> ls_mix_prev l = ls_mix_prev l' ->
  interpolate ov g x l lim = interpolate ov g x l' lim.
Proof.
  intros E1 E2 E3. unfold interpolate, interpolate1, interpolate2, interpolate3, read_node. rewrite E1, E2, E3. reflexivity.
Qed.

Record interp_done (g : grid T) (cs : list cell) (val : cell -> fields T) (l l' : levelset T) : Prop := {
  id_rest : ls_phi l' = ls_phi l /\ ls_psi l' = ls_psi l /\ ls_mix l' = ls_mix l /\ ls_phi_prev l' = ls_phi_prev l /\
            ls_psi_prev l' = ls_psi_prev l /\ ls_mix_prev l' = ls_mix_prev l;
  id_shape : shaped g (ls_phi_interp l') /\ shaped g (ls_psi_interp l');
  id_in : forall c, In c cs -> peek g (ls_phi_interp l') c = Ok (f_phi (val c)) /\
                               peek g (ls_psi_interp l') c = Ok (f_psi (val c));
  id_out : forall c, gcell g c -> ~ In c cs -> peek g (ls_phi_interp l') c = peek g (ls_phi_interp l) c /\
                               peek g (ls_psi_interp l') c = peek g (ls_psi_interp l) c }.

Lemma hermite_loop ov (g gx : grid T) xi l (val : cell -> fields T) cs :
  okgrid ov g -> shaped g (ls_phi_interp l) -> shaped g (ls_psi_interp l) ->
  NoDup cs -> (forall c, In c cs -> gcell g c) ->
  (forall i j k, In (i, j, k) cs -> exists x, aget ov gx xi i j k = Ok x /\
      interpolate ov g x l false = Ok (val (i, j, k))) ->
  exists l', forM cs (hermite_body ov gx xi g) l = Ok l' /\ interp_done g cs val l l'.
Proof.
  intros Hg S1 S2 Hnd HU Hx.
  destruct (forM_obs (gcell g)
    (fun s => (ls_phi s = ls_phi l /\ ls_psi s = ls_psi l /\ ls_mix s = ls_mix l /\ ls_phi_prev s = ls_phi_prev l /\
               ls_psi_prev s = ls_psi_prev l /\ ls_mix_prev s = ls_mix_prev l) /\
              shaped g (ls_phi_interp s) /\ shaped g (ls_psi_interp s))
    (fun s c => (peek g (ls_phi_interp s) c, peek g (ls_psi_interp s) c))
    (fun c _ => (Ok (f_phi (val c)), Ok (f_psi (val c))))
    (hermite_body ov gx xi g) cs l) as (l' & E & (G1 & G2 & G3) & H1 & H2); auto.
  - repeat split; auto; first [apply S1|apply S2].
  - intros s [[i j] k] ((R1 & R2 & R3 & R4 & R5 & R6) & P1 & P2) Hc.
    destruct (Hx i j k Hc) as (x & Ex & Ef). unfold hermite_body. rewrite Ex. cbn [bind].
    rewrite (interpolate_prev ov g x s l) by auto. rewrite Ef. cbn [bind].
    rewrite !(aset_poke ov) by auto. cbn [bind]. eexists. split; [reflexivity|].
    cbn [with_phi_interp with_psi_interp ls_phi ls_psi ls_mix ls_phi_prev ls_psi_prev ls_mix_prev ls_phi_interp ls_psi_interp].
    split; [split; [repeat split; auto|split; apply poke_shaped; auto]|].
    rewrite !(peek_poke_same ov) by auto. split; [reflexivity|].
    intros c' Hc' Hne. rewrite !(peek_poke_other ov) by auto. reflexivity.
  - exists l'. split; [exact E|]. split; auto.
    + intros c Hc. specialize (H1 c Hc). inversion H1; auto.
    + intros c Hc Hn. specialize (H2 c Hc Hn). inversion H2; auto.
Qed.

(** ** semi-Lagrangian step *)
Lemma vel_loops ov (g : grid T) dt lv :
  okgrid ov g -> Z.of_nat (length (g_nodes g)) = gcount g ->
  shaped g (lv_vel lv) -> shaped g (lv_grad lv) ->
  exists xr xg, sl_root ov g dt lv = Ok xr /\ sl_rgrad ov g dt lv = Ok xg /\ shaped g xr /\ shaped g xg /\
   forall i j k, interior_cell (g_n g) (i, j, k) -> exists x v m,
     node ov g i j k = Ok x /\ aget ov g (lv_vel lv) i j k = Ok v /\ aget ov g (lv_grad lv) i j k = Ok m /\
     aget ov g xr i j k = Ok (vsub x (vscale v dt)) /\ aget ov g xg i j k = Ok (msub midentity (mscale m dt)).
Proof.
  intros Hg Hlen Sv Sm.
  assert (HU : forall c, In c (interior (num_cells g)) -> gcell g c).
  { intros c Hc. apply in_interior in Hc. eapply interior_padded; [apply Hg|exact Hc]. }
  assert (ND : forall i j k, gcell g (i, j, k) -> exists x, node ov g i j k = Ok x).
  { intros i j k Hc. unfold node. rewrite index_ok; [|apply Hg|apply Hg|apply padded_cell_for; exact Hc]. cbn [bind].
    destruct (vread_inb (g_nodes g) (glin g (i, j, k))) as (x & E & _); [|eauto].
    rewrite Hlen. eapply glin_bounds; eauto. }
  set (nodeval := fun c : cell => match c with (i, j, k) => match node ov g i j k with Ok x => x | _ => vzero end end).
  set (pv := fun c => match peek g (lv_vel lv) c with Ok x => x | _ => vzero end).
  set (pm := fun c => match peek g (lv_grad lv) c with Ok x => x | _ => mzero end).
  destruct (array_ctor_shaped ov g (vzero : vec3 T) Hg Hlen) as (C1 & D1).
  destruct (array_ctor_shaped ov g (mzero : mat3 T) Hg Hlen) as (C2 & D2).
  destruct (loop_cells ov g (fun c _ => vsub (nodeval c) (vscale (pv c) dt)) (sl_root_body ov g dt lv)
     (interior (num_cells g)) (array_ctor g vzero)) as (xr & Er & Sr & _ & Hr & _); auto.
  { apply interior_nodup. }
  { intros s [[i j] k] x Hs _ Hc _. pose proof (HU _ Hc) as Hc'. unfold sl_root_body.
    destruct (ND i j k Hc') as (y & Ey). destruct (peek_ok ov g _ _ Hg Sv Hc') as (v & Ev).
    unfold nodeval, pv. rewrite Ey, Ev. cbn [bind]. rewrite (aget_peek_c ov) by auto. rewrite Ev. cbn [bind].
    apply aset_poke; auto. }
  destruct (loop_cells ov g (fun c _ => msub midentity (mscale (pm c) dt)) (sl_rgrad_body ov g dt lv)
     (interior (num_cells g)) (array_ctor g mzero)) as (xg & Eg & Sg & _ & Hgr & _); auto.
  { apply interior_nodup. }
  { intros s [[i j] k] x Hs _ Hc _. pose proof (HU _ Hc) as Hc'. unfold sl_rgrad_body.
    destruct (peek_ok ov g _ _ Hg Sm Hc') as (v & Ev).
    unfold pm. rewrite Ev. rewrite (aget_peek_c ov) by auto. rewrite Ev. cbn [bind].
    apply aset_poke; auto. }
  exists xr, xg. split; [exact Er|]. split; [exact Eg|]. split; [exact Sr|]. split; [exact Sg|].
  intros i j k Hi. assert (Hi' : In (i, j, k) (interior (num_cells g))) by (apply in_interior; exact Hi).
  pose proof (HU _ Hi') as Hc.
  destruct (ND i j k Hc) as (y & Ey). destruct (peek_ok ov g _ _ Hg Sv Hc) as (v & Ev).
  destruct (peek_ok ov g _ _ Hg Sm Hc) as (m & Em).
  exists y, v, m. rewrite !(aget_peek_c ov) by auto. rewrite Ey, Ev, Em.
  rewrite (Hr _ _ Hi' (D1 _ Hc)), (Hgr _ _ Hi' (D2 _ Hc)). unfold nodeval, pv, pm. rewrite Ey, Ev, Em. auto.
Qed.

Record sl_done (g : grid T) (ph : cell -> T) (ps : cell -> vec3 T) (l l' : levelset T) : Prop := {
  sd_rest : ls_mix l' = ls_mix l /\ ls_phi_prev l' = ls_phi_prev l /\ ls_psi_prev l' = ls_psi_prev l /\
            ls_mix_prev l' = ls_mix_prev l /\ ls_phi_interp l' = ls_phi_interp l /\ ls_psi_interp l' = ls_psi_interp l;
  sd_shape : shaped g (ls_phi l') /\ shaped g (ls_psi l');
  sd_in : forall c, interior_cell (g_n g) c -> peek g (ls_phi l') c = Ok (ph c) /\ peek g (ls_psi l') c = Ok (ps c);
  sd_out : forall c, gcell g c -> ~ interior_cell (g_n g) c ->
            peek g (ls_phi l') c = peek g (ls_phi l) c /\ peek g (ls_psi l') c = peek g (ls_psi l) c }.

Lemma update_loop ov (g : grid T) xg l ph s m :
  okgrid ov g -> shaped g (ls_phi l) -> shaped g (ls_psi l) ->
  (forall i j k, interior_cell (g_n g) (i, j, k) ->
     aget ov g (ls_phi_interp l) i j k = Ok (ph (i, j, k)) /\ aget ov g (ls_psi_interp l) i j k = Ok (s (i, j, k)) /\
     aget ov g xg i j k = Ok (m (i, j, k))) ->
  exists l', forM (interior (num_cells g)) (sl_update_body ov g xg) l = Ok l' /\
    sl_done g ph (fun c => mdot (m c) (s c)) l l'.
Proof.
  intros Hg S1 S2 H.
  assert (HU : forall c, In c (interior (num_cells g)) -> gcell g c).
  { intros c Hc. apply in_interior in Hc. eapply interior_padded; [apply Hg|exact Hc]. }
  destruct (forM_obs (gcell g)
    (fun t => (ls_mix t = ls_mix l /\ ls_phi_prev t = ls_phi_prev l /\ ls_psi_prev t = ls_psi_prev l /\
            ls_mix_prev t = ls_mix_prev l /\ ls_phi_interp t = ls_phi_interp l /\ ls_psi_interp t = ls_psi_interp l) /\
            shaped g (ls_phi t) /\ shaped g (ls_psi t))
    (fun t c => (peek g (ls_phi t) c, peek g (ls_psi t) c))
    (fun c _ => (Ok (ph c), Ok (mdot (m c) (s c))))
    (sl_update_body ov g xg) (interior (num_cells g)) l) as (l' & E & (G1 & G2 & G3) & H1 & H2); auto.
  - apply interior_nodup.
  - repeat split; auto; first [apply S1|apply S2].
  - intros t [[i j] k] ((R1 & R2 & R3 & R4 & R5 & R6) & P1 & P2) Hc. pose proof (HU _ Hc) as Hc'.
    apply in_interior in Hc. destruct (H i j k Hc) as (E1 & E2 & E3). unfold sl_update_body.
    rewrite R5, E1. cbn [bind]. rewrite (aset_poke ov) by auto. cbn [bind]. rewrite E3. cbn [bind]. rewrite R6, E2. cbn [bind].
    rewrite (aset_poke ov) by auto. cbn [bind]. eexists. split; [reflexivity|].
    cbn [with_phi with_psi ls_phi ls_psi ls_mix ls_phi_prev ls_psi_prev ls_mix_prev ls_phi_interp ls_psi_interp].
    split; [split; [repeat split; auto|split; apply poke_shaped; auto]|].
    rewrite !(peek_poke_same ov) by auto. split; [reflexivity|].
    intros c' Hc1 Hne. rewrite !(peek_poke_other ov) by auto. reflexivity.
  - exists l'. split; [exact E|]. split; auto.
    + intros c Hc. apply in_interior in Hc. specialize (H1 c Hc). inversion H1; auto.
    + intros c Hc Hn. specialize (H2 c Hc). rewrite in_interior in H2. specialize (H2 Hn). inversion H2; auto.
Qed.

(** everything a semi-Lagrangian step does *)
Lemma sl_step ov (g : grid T) dt lv l (val : cell -> fields T) :
  okgrid ov g -> Z.of_nat (length (g_nodes g)) = gcount g ->
  shaped g (lv_vel lv) -> shaped g (lv_grad lv) ->
  shaped g (ls_phi l) -> shaped g (ls_psi l) -> shaped g (ls_phi_interp l) -> shaped g (ls_psi_interp l) ->
  (forall i j k x v, interior_cell (g_n g) (i, j, k) -> node ov g i j k = Ok x -> aget ov g (lv_vel lv) i j k = Ok v ->
     interpolate ov g (vsub x (vscale v dt)) l false = Ok (val (i, j, k))) ->
  exists l', sl_compute ov g dt lv l = Ok l' /\
    (ls_mix l' = ls_mix l /\ ls_phi_prev l' = ls_phi_prev l /\ ls_psi_prev l' = ls_psi_prev l /\ ls_mix_prev l' = ls_mix_prev l) /\
    (shaped g (ls_phi l') /\ shaped g (ls_psi l') /\ shaped g (ls_phi_interp l') /\ shaped g (ls_psi_interp l')) /\
    (forall c, interior_cell (g_n g) c -> exists m, peek g (lv_grad lv) c = Ok m /\
       peek g (ls_phi l') c = Ok (f_phi (val c)) /\
       peek g (ls_psi l') c = Ok (mdot (msub midentity (mscale m dt)) (f_psi (val c))) /\
       peek g (ls_phi_interp l') c = Ok (f_phi (val c)) /\ peek g (ls_psi_interp l') c = Ok (f_psi (val c))) /\
    (forall c, gcell g c -> ~ interior_cell (g_n g) c ->
       peek g (ls_phi l') c = peek g (ls_phi l) c /\ peek g (ls_psi l') c = peek g (ls_psi l) c /\
       peek g (ls_phi_interp l') c = peek g (ls_phi_interp l) c /\ peek g (ls_psi_interp l') c = peek g (ls_psi_interp l) c).
Proof.
  intros Hg Hlen Sv Sm S1 S2 S3 S4 Hval.
  assert (HU : forall c, In c (interior (num_cells g)) -> gcell g c).
  { intros c Hc. apply in_interior in Hc. eapply interior_padded; [apply Hg|exact Hc]. }
  destruct (vel_loops ov g dt lv Hg Hlen Sv Sm) as (xr & xg & Er & Eg & Sr & Sg & Hx).
  unfold sl_compute. rewrite Er. cbn [bind].
  destruct (hermite_loop ov g g xr l val (interior (num_cells g))) as (l1 & E1 & D1); auto.
  { apply interior_nodup. }
  { intros i j k Hc. apply in_interior in Hc. destruct (Hx i j k Hc) as (x & v & m & N & V & M & X & _).
    eexists. split; [exact X|]. eapply Hval; eauto. }
  destruct D1 as [(Q1 & Q2 & Q3 & Q4 & Q5 & Q6) (Q7 & Q8) Din Dout].
  unfold hermite_compute. assert (Ec : array_cells xr = num_cells g) by apply Sr. rewrite Ec.
  change (Z * Z * Z)%type with cell. rewrite E1. cbn [bind]. rewrite Eg. cbn [bind].
  set (mm := fun c => match peek g xg c with Ok m => m | _ => mzero end).
  destruct (update_loop ov g xg l1 (fun c => f_phi (val c)) (fun c => f_psi (val c)) mm) as (l2 & E2 & D2); auto.
  { rewrite Q1. auto. } { rewrite Q2. auto. }
  { intros i j k Hc. assert (Hi : In (i, j, k) (interior (num_cells g))) by (apply in_interior; exact Hc).
    destruct (Din _ Hi) as (A & B). pose proof (HU _ Hi) as HG. destruct (Hx i j k Hc) as (x & v & m & N & V & M & X & G).
    rewrite !(aget_peek_c ov) in * by auto. split; [exact A|]. split; [exact B|].
    unfold mm. rewrite G. reflexivity. }
  destruct D2 as [(R1 & R2 & R3 & R4 & R5 & R6) (R7 & R8) Uin Uout].
  exists l2. split; [exact E2|]. split; [repeat split; congruence|].
  split; [rewrite R5, R6; auto|]. split.
  - intros [[i j] k] Hc. assert (Hi : In (i, j, k) (interior (num_cells g))) by (apply in_interior; exact Hc).
    destruct (Hx i j k Hc) as (x & v & m & N & V & M & X & G). pose proof (HU _ Hi) as HG.
    rewrite !(aget_peek_c ov) in * by auto. exists m. split; [exact M|].
    destruct (Uin _ Hc) as (A & B). destruct (Din _ Hi) as (C & D). rewrite A, B, R5, R6. unfold mm. rewrite G. auto.
  - intros c Hc Hn. destruct (Uout c Hc Hn) as (A & B). rewrite A, B, R5, R6, Q1, Q2.
    destruct (Dout c Hc) as (C & D); [rewrite in_interior; exact Hn|]. auto.
Qed.

(** ** Euler step *)
Lemma euler_loop ov (g : grid T) dt lv l :
  okgrid ov g -> shaped g (lv_vel lv) -> shaped g (ls_phi l) -> shaped g (ls_phi_prev l) ->
  exists l', euler_compute ov g dt lv l = Ok l' /\
    (ls_psi l' = ls_psi l /\ ls_mix l' = ls_mix l /\ ls_phi_prev l' = ls_phi_prev l /\ ls_psi_prev l' = ls_psi_prev l /\
     ls_mix_prev l' = ls_mix_prev l /\ ls_phi_interp l' = ls_phi_interp l /\ ls_psi_interp l' = ls_psi_interp l) /\
    shaped g (ls_phi l') /\
    (forall c, interior_cell (g_n g) c -> exists p v, peek g (ls_phi_prev l) c = Ok p /\ peek g (lv_vel lv) c = Ok v /\
       peek g (ls_phi l') c = Ok (p - dt * vx v)%num) /\
    (forall c, gcell g c -> ~ interior_cell (g_n g) c -> peek g (ls_phi l') c = peek g (ls_phi l) c).
Proof.
  intros Hg Sv S1 S2.
  assert (HU : forall c, In c (interior (g_n g)) -> gcell g c).
  { intros c Hc. apply in_interior in Hc. eapply interior_padded; [apply Hg|exact Hc]. }
  set (pp := fun c => match peek g (ls_phi_prev l) c with Ok x => x | _ => nofZ 0 end).
  set (pv := fun c => match peek g (lv_vel lv) c with Ok x => x | _ => vzero end).
  unfold euler_compute. replace (array_cells (ls_phi l)) with (g_n g) by (symmetry; apply S1).
  destruct (forM_obs (gcell g)
    (fun t => (ls_psi t = ls_psi l /\ ls_mix t = ls_mix l /\ ls_phi_prev t = ls_phi_prev l /\ ls_psi_prev t = ls_psi_prev l /\
     ls_mix_prev t = ls_mix_prev l /\ ls_phi_interp t = ls_phi_interp l /\ ls_psi_interp t = ls_psi_interp l) /\
            shaped g (ls_phi t))
    (fun t c => peek g (ls_phi t) c) (fun c _ => Ok (pp c - dt * vx (pv c))%num)
    (euler_body ov g dt lv) (interior (g_n g)) l) as (l' & E & (G1 & G2) & H1 & H2); auto.
  - apply interior_nodup.
  - repeat split; auto; apply S1.
  - intros t [[i j] k] ((R1 & R2 & R3 & R4 & R5 & R6 & R7) & P1) Hc. pose proof (HU _ Hc) as Hc'.
    destruct (peek_ok ov g _ _ Hg S2 Hc') as (p & Ep). destruct (peek_ok ov g _ _ Hg Sv Hc') as (v & Ev).
    unfold euler_body. rewrite R3. rewrite !(aget_peek_c ov) by auto. rewrite Ep. cbn [bind]. rewrite Ev. cbn [bind].
    rewrite (aset_poke ov) by auto. cbn [bind]. eexists. split; [reflexivity|].
    cbn [with_phi ls_phi ls_psi ls_mix ls_phi_prev ls_psi_prev ls_mix_prev ls_phi_interp ls_psi_interp].
    split; [split; [repeat split; auto|apply poke_shaped; auto]|].
    rewrite (peek_poke_same ov) by auto. unfold pp, pv. rewrite Ep, Ev. split; [reflexivity|].
    intros c' Hc1 Hne. rewrite (peek_poke_other ov) by auto. reflexivity.
  - exists l'. split; [exact E|]. split; [exact G1|]. split; [exact G2|]. split.
    + intros c Hc. apply in_interior in Hc. specialize (H1 c Hc). pose proof (HU _ Hc) as Hc'.
      destruct (peek_ok ov g _ _ Hg S2 Hc') as (p & Ep). destruct (peek_ok ov g _ _ Hg Sv Hc') as (v & Ev).
      exists p, v. unfold pp, pv in H1. rewrite Ep, Ev in H1. auto.
    + intros c Hc Hn. apply H2; auto. rewrite in_interior. exact Hn.
Qed.

(** ** gradients *)
Lemma forM_fold_cell {A C} ov (g : grid T) (F : C -> A -> A) (body : array A -> C -> outcome (array A)) (c : cell) cs :
  okgrid ov g -> gcell g c ->
  (forall s a x, In a cs -> shaped g s -> peek g s c = Ok x -> body s a = Ok (poke g s c (F a x))) ->
  forall s x, shaped g s -> peek g s c = Ok x -> cs <> [] ->
  forM cs body s = Ok (poke g s c (fold_left (fun x a => F a x) cs x)).
Proof.
  intros Hg Hc. induction cs as [|a cs IH]; intros Hb s x Hs Hx Hne; [congruence|]. cbn [forM fold_left].
  rewrite (Hb s a x) by (auto; now left). cbn [bind].
  destruct cs as [|a' cs]; [reflexivity|].
  rewrite (IH) with (x := F a x).
  - unfold poke. cbn [a_n a_pad a_data]. rewrite lupd_lupd. reflexivity.
  - intros; apply Hb; auto; now right.
  - apply poke_shaped; auto.
  - apply (peek_poke_same ov); auto.
  - discriminate.
Qed.
End WithT.
