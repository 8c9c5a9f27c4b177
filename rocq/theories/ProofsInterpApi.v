From Coq Require Import ZArith List Lia Reals Lra Bool.
From Verif Require Import Base Num ModelVec ModelGrid ModelArray ModelInterp SpecGrid SpecInterp
  ProofsBase ProofsGrid ProofsArray ProofsGridProps ProofsHermite ProofsHermiteCell ProofsHermiteExact
  ProofsInterp ProofsInterpProps ProofsInterpMore ProofsLoops.
Open Scope R_scope.

(** *** arrays with given contents exist *)
Lemma array_of {T} {NT : Num T} {A} ov (g : grid T) (f : cell -> A) : okgrid ov g ->
  exists a, shaped g a /\ (forall c, gcell g c -> peek g a c = Ok (f c)) /\
    Forall (fun x => exists c, x = f c) (a_data a).
Proof.
  intros Hg. pose proof (gcount_pos _ _ Hg) as Hc.
  assert (G : forall m : nat, (Z.of_nat m <= gcount g)%Z ->
     exists d : list A, length d = m /\ (forall c, gcell g c -> (glin g c < Z.of_nat m)%Z -> vread d (glin g c) = Ok (f c)) /\
       Forall (fun x => exists c, x = f c) d).
  { induction m as [|m IH]; intros Hm.
    - exists []. split; [reflexivity|]. split; [|constructor]. intros c Hcc Hlt. pose proof (glin_bounds _ _ _ Hg Hcc). lia.
    - destruct IH as (d & L & R' & Fd); [lia|].
      destruct (lin_surj (g_dim g) (g_n g) (g_pad g) (Z.of_nat m)) as (c0 & Hc0 & E0); [apply Hg|fold (gcount g); lia|].
      exists (d ++ [f c0]). split; [rewrite app_length; cbn; lia|]. split.
      + intros c Hcc Hlt. destruct (Z.eq_dec (glin g c) (Z.of_nat m)) as [E|E].
        * assert (c = c0) by (eapply lin_inj; [apply Hg|exact Hcc|exact Hc0|unfold glin in E; congruence]). subst c.
          unfold vread. rewrite E. destruct (Z.leb_spec 0 (Z.of_nat m)); [|lia]. rewrite Nat2Z.id.
          rewrite nth_error_app2 by lia. rewrite L, Nat.sub_diag. reflexivity.
        * rewrite <- R' by (auto; lia). pose proof (glin_bounds _ _ _ Hg Hcc). unfold vread.
          destruct (Z.leb_spec 0 (glin g c)); [|lia]. rewrite nth_error_app1 by lia. reflexivity.
      + apply Forall_app. split; [exact Fd|]. repeat constructor. eauto. }
  destruct (G (Z.to_nat (gcount g))) as (d & L & H & Fd); [lia|].
  exists (mkArray (g_n g) (g_pad g) d). split; [split; cbn; [reflexivity|lia]|]. split; [|exact Fd].
  intros c Hcc. apply H; auto. pose proof (glin_bounds _ _ _ Hg Hcc). lia.
Qed.

Definition values_list (dim : nat) (s : cell_values) : list R :=
  match dim with 1%nat => [] | 2%nat => [cv_xy s] | _ => [cv_xy s; cv_yz s; cv_zx s; cv_xyz s] end.

(** a level set with any given previous fields exists on any grid *)
Lemma stores_exists ov dim n pad bmin bmax (g : grid R) (S : cell -> cell_values) :
  built ov dim n pad bmin bmax g -> exists l, levelset_on g l /\ stores ov dim n pad g l S.
Proof.
  intros Hb. pose proof (built_ok _ _ _ _ _ _ _ Hb) as F. pose proof (bf_ok _ _ _ _ _ _ _ F) as Hg.
  destruct (array_of ov g (fun c => cv (S c)) Hg) as (a1 & S1 & P1 & _).
  destruct (array_of ov g (fun c => V3 (cv_x (S c)) (cv_y (S c)) (cv_z (S c))) Hg) as (a2 & S2 & P2 & _).
  destruct (array_of ov g (fun c => values_list dim (S c)) Hg) as (a3 & S3 & P3 & F3).
  exists (mkLS a1 a2 a3 a1 a2 a3 a1 a2). split.
  - pose proof (fun A a => proj2 (array_on_shaped (A := A) _ _ _ _ _ _ _ a Hb)) as K.
    split; cbn [ls_phi ls_psi ls_mix ls_phi_prev ls_psi_prev ls_mix_prev ls_phi_interp ls_psi_interp]; auto.
    eapply Forall_impl; [|exact F3]. intros x (c & ->). rewrite (bf_dim _ _ _ _ _ _ _ F).
    pose proof (proj1 (proj1 Hb)) as Hd. unfold values_list, mixed_count.
    assert (D : dim = 1%nat \/ dim = 2%nat \/ dim = 3%nat) by lia. destruct D as [->|[->| ->]]; reflexivity.
  - intros i j k Hp. cbv zeta. cbn [ls_phi_prev ls_psi_prev ls_mix_prev].
    assert (Hc : gcell g (i, j, k)) by (apply (built_gcell _ _ _ _ _ _ _ _ Hb); exact Hp).
    rewrite !(aget_peek_c ov) by auto. rewrite P1, P2, P3 by auto. auto.
Qed.

Definition samples_at (c : nat -> nat -> nat -> R) (p : vec3 R) : cell_values :=
  CV (poly c p) (dpoly AX c p) (dpoly AY c p) (dpoly AZ c p) (tricubic true true false c p)
     (tricubic false true true c p) (tricubic true false true c p) (tricubic true true true c p).

Lemma sampled_nodes_exists ov dim n pad bmin bmax (g : grid R) c :
  built ov dim n pad bmin bmax g -> exists l, levelset_on g l /\ sampled_nodes ov dim n pad g l c.
Proof.
  intros Hb.
  destruct (stores_exists ov dim n pad bmin bmax g (fun b => samples_at c (flat dim
    (match b with (i, j, k) => match node ov g i j k with Ok p => p | _ => V3 0 0 0 end end))) Hb) as (l & Hl & HS).
  exists l. split; [exact Hl|]. intros i j k Hp.
  destruct (node_position _ _ _ _ _ _ _ _ _ _ Hb Hp) as (p & Ep & _). exists p. split; [exact Ep|].
  specialize (HS i j k Hp). cbv zeta beta iota in *. rewrite Ep in HS. destruct HS as (A & B & C).
  split; [exact A|]. split; [|exact C]. eexists. split; [exact B|]. intros [| |] _; reflexivity.
Qed.

(** *** C16-C18 for every padding *)
Section Pad.
Variables (ov : ovmode) (dim : nat) (n : vec3 Z) (pad : Z) (bmin bmax : vec3 R) (g : grid R) (l : levelset R).
Hypothesis Hb : built ov dim n pad bmin bmax g.
Hypothesis Hpad : (1 <= pad)%Z.
Hypothesis Hl : levelset_on g l.
Hypothesis Hbox : proper_box dim bmin bmax.
Hypothesis Hdef : interp_defined ov dim.

Lemma corner_padded_pad x b' : in_lattice dim n bmin bmax x -> is_corner dim (bcell dim n bmin bmax x) b' -> padded_cell dim n pad b'.
Proof.
  intros Hx Hc a. specialize (Hc a). rewrite bcell_coord in Hc.
  destruct (used dim a) eqn:Hu.
  - pose proof (bcoord_range ov dim n pad bmin bmax g Hb Hbox x a Hx Hu). lia.
  - destruct Hc as [-> | [? _]]; [|congruence]. unfold bcoord. rewrite Hu. reflexivity.
Qed.

Definition shifted_pos (b : cell) : vec3 R :=
  let f a := if used dim a then vget bmin a + (IZR (ccoord b a) + IZR pad - / 2) * spacing (vget bmin a) (vget bmax a) (vget n a) else 0 in
  V3 (f AX) (f AY) (f AZ).
Lemma shifted_get b a : vget (shifted_pos b) a =
  if used dim a then vget bmin a + (IZR (ccoord b a) + IZR pad - / 2) * spacing (vget bmin a) (vget bmax a) (vget n a) else 0.
Proof. destruct a; reflexivity. Qed.
Lemma flat_get (x : vec3 R) a : vget (flat dim x) a = if used dim a then vget x a else 0.
Proof. destruct a; reflexivity. Qed.

Lemma shifted_lpos b b' : is_corner dim b b' -> shifted_pos b' = lpos (shifted_pos b) (hs n bmin bmax) b b'.
Proof.
  intros Hc. apply vec_ext. intros a.
  assert (E : vget (lpos (shifted_pos b) (hs n bmin bmax) b b') a =
    vget (shifted_pos b) a + IZR (ccoord b' a - ccoord b a) * vget (hs n bmin bmax) a) by (destruct a; reflexivity).
  rewrite E, !shifted_get, hs_get. destruct (used dim a) eqn:Hu.
  - rewrite minus_IZR. ring.
  - destruct (Hc a) as [-> | [? _]]; [|congruence]. rewrite Z.sub_diag. ring.
Qed.

Lemma sampled_nodes_data c b : sampled_nodes ov dim n pad g l c -> padded_cell dim n pad b ->
  node_samples dim c (cell_data g l b) (shifted_pos b).
Proof.
  intros HS Hp. destruct b as [[i j] k]. destruct (HS i j k Hp) as (p0 & Ep & H1 & (s & H2 & H2') & H3). cbv zeta in *.
  destruct (node_position _ _ _ _ _ _ _ _ _ _ Hb Hp) as (p & Ep' & Vp). rewrite Ep in Ep'. inversion Ep'; subst p. clear Ep'.
  assert (EF : flat dim p0 = shifted_pos (i, j, k)).
  { apply vec_ext. intros a. rewrite flat_get, shifted_get, Vp. destruct (used dim a); reflexivity. }
  rewrite EF in *.
  pose proof (built_ok _ _ _ _ _ _ _ Hb) as F.
  assert (Hg : gcell g (i, j, k)) by (apply (built_gcell _ _ _ _ _ _ _ _ Hb); exact Hp).
  rewrite (aget_peek_c ov) in H1 by (auto; apply F). rewrite (aget_peek_c ov) in H2 by (auto; apply F).
  rewrite (aget_peek_c ov) in H3 by (auto; apply F).
  unfold cell_data. rewrite H1, H2, H3. cbn [val q_phi q_psi q_m0 q_m1 q_m2 q_m3].
  split; [reflexivity|]. split; [exact H2'|]. pose proof (proj1 (proj1 Hb)) as Hd. clear - Hd.
  dim_cases Hd; cbn [nth]; repeat split; auto; lia.
Qed.

Lemma interp_exact_pad c x : sampled_nodes ov dim n pad g l c -> in_lattice dim n bmin bmax x ->
  exists f, interpolate ov g x l false = Ok f /\ f_phi f = poly c (flat dim x) /\
    forall a, vget (f_psi f) a = if used dim a then dpoly a c (flat dim x) else 0.
Proof.
  intros HS Hx. pose proof (proj1 (proj1 Hb)) as Hd.
  rewrite (interp_eval_pad ov dim n pad bmin bmax g l Hb Hpad Hl Hbox Hdef x false Hx).
  rewrite herm_HD by exact Hd. eexists. split; [reflexivity|]. cbn [f_phi f_psi].
  set (b := bcell dim n bmin bmax x) in *. set (p0 := shifted_pos b). set (e := locp dim n pad bmin bmax b x).
  set (h := hs n bmin bmax).
  assert (HQ : forall b', is_corner dim b b' -> node_samples dim c (cell_data g l b') (lpos p0 h b b')).
  { intros b' Hc. unfold p0, h. rewrite <- shifted_lpos by auto. apply sampled_nodes_data; auto. apply (corner_padded_pad x); auto. }
  assert (EP : V3 (vx p0 + vx e * vx h) (if used dim AY then vy p0 + vy e * vy h else vy p0)
        (if used dim AZ then vz p0 + vz e * vz h else vz p0) = flat dim x).
  { assert (K : forall a, used dim a = true -> vget p0 a + vget e a * vget h a = vget x a).
    { intros a Hu. unfold p0, e, h. rewrite shifted_get, locp_get, loc_get, Hu, hs_get. unfold lc, lattice_coord.
      pose proof (h_pos ov dim n pad bmin bmax g Hb Hbox a Hu). set (s := spacing _ _ _) in *. field. lra. }
    apply vec_ext. intros [| |]; cbn [vget vx vy vz flat].
    - apply (K AX). reflexivity.
    - destruct (used dim AY) eqn:Hu; [apply (K AY Hu)|]. unfold p0, shifted_pos. cbn [vy]. rewrite Hu. reflexivity.
    - destruct (used dim AZ) eqn:Hu; [apply (K AZ Hu)|]. unfold p0, shifted_pos. cbn [vz]. rewrite Hu. reflexivity. }
  split.
  - rewrite (HD_exact dim None c _ b p0 h) by (auto; discriminate). rewrite EP. cbn [flag]. unfold poly. ring.
  - intros a.
    assert (EH : forall W, vget (V3 (W AX) (W AY) (W AZ)) a = W a :> R) by (intros W; destruct a; reflexivity).
    rewrite (EH (hpsi dim (cell_data g l) b e h (os n bmin bmax))).
    unfold hpsi. destruct (used dim a) eqn:Hu; [|reflexivity].
    rewrite (HD_exact dim (Some a) c _ b p0 h); auto; [|intros a' [= <-]; exact Hu].
    rewrite EP, os_get. pose proof (h_pos ov dim n pad bmin bmax g Hb Hbox a Hu) as Hp. unfold h. rewrite <- hs_get in Hp.
    destruct a; cbn [flag axis_eqb dpoly]; field; lra.
Qed.
End Pad.

(** *** 1-D value in terms of control values, any padding, with or without limiting *)
Lemma bern_bezier c (e : R) : c_30 c * B0 e + c_21 c * B1 e + c_12 c * B2 e + c_03 c * B3 e =
  bezier (c_30 c) (c_21 c) (c_12 c) (c_03 c) e.
Proof. unfold bezier, B0, B1, B2, B3, sqr, cube. cbn [nadd nsub nmul ndiv nofZ NumR]. ring. Qed.

Lemma interp_1d ov n pad bmin bmax g l S x i lim : built ov 1 n pad bmin bmax g -> (1 <= pad)%Z -> levelset_on g l ->
  proper_box 1 bmin bmax -> interp_defined ov 1 -> stores ov 1 n pad g l S -> in_lattice 1 n bmin bmax x ->
  encloses 1 n bmin bmax x (i, 0, 0)%Z ->
  let h := spacing (vx bmin) (vx bmax) (vx n) in
  let t := (vx x - centre (vx bmin) (vx bmax) (vx n) i) / h in
  let s0 := S (i, 0, 0)%Z in let s1 := S (i + 1, 0, 0)%Z in
  let inner := if lim : bool then limited (cv s0) (cv_x s0) (cv s1) (cv_x s1) h
               else (bez 1 (cv s0) (cv_x s0) (cv s1) (cv_x s1) h, bez 2 (cv s0) (cv_x s0) (cv s1) (cv_x s1) h) in
  exists f, interpolate ov g x l lim = Ok f /\
    f_phi f = bezier (cv s0) (fst inner) (snd inner) (cv s1) (t - (IZR pad - 1)).
Proof.
  intros Hb Hpad Hl Hbox Hdef HS Hx He h t s0 s1 inner.
  pose proof (built_ok _ _ _ _ _ _ _ Hb) as F.
  rewrite (interp_eval_pad ov 1 n pad bmin bmax g l Hb Hpad Hl Hbox Hdef x lim Hx).
  eexists. split; [reflexivity|].
  pose proof (h_pos ov 1 n pad bmin bmax g Hb Hbox AX eq_refl) as Hh. cbn [vget] in Hh. fold h in Hh.
  assert (EB : bcell 1 n bmin bmax x = (i, 0, 0)%Z).
  { unfold bcell, bcoord. cbn [used Nat.leb vget].
    replace (Rfloor (lc n bmin bmax AX (vx x))) with i; [reflexivity|]. symmetry. apply Rfloor_unique.
    specialize (He AX). cbn [used vget ccoord] in He. unfold lc, lattice_coord, centre in *. cbn [vget]. rewrite plus_IZR in He.
    fold h in He |- *. set (z := IZR i) in *.
    assert (E : (vx x - vx bmin) / h * h = vx x - vx bmin) by (field; lra).
    set (q := (vx x - vx bmin) / h) in *. split.
    - apply Rmult_le_reg_r with h; lra.
    - apply Rmult_lt_reg_r with h; lra. }
  assert (HP : forall b, b = (i, 0, 0)%Z \/ b = (i + 1, 0, 0)%Z -> padded_cell 1 n pad b).
  { intros b [-> | ->]; apply (corner_padded_pad ov 1 n pad bmin bmax g Hb Hpad Hbox x); auto; rewrite EB;
      [apply corner_refl|apply (corner_x 1 (i, 0, 0)%Z)]. }
  assert (HQ : forall b, b = (i, 0, 0)%Z \/ b = (i + 1, 0, 0)%Z ->
     q_phi (cell_data g l b) = cv (S b) /\ vx (q_psi (cell_data g l b)) = cv_x (S b)).
  { intros b Hbb. specialize (HP b Hbb). destruct b as [[i' j'] k']. specialize (HS i' j' k' HP). cbv zeta in HS.
    assert (Hg : gcell g (i', j', k')) by (apply (built_gcell _ _ _ _ _ _ _ _ Hb); exact HP).
    destruct HS as (H1 & H2 & _).
    rewrite (aget_peek_c ov) in H1 by (auto; apply F). rewrite (aget_peek_c ov) in H2 by (auto; apply F).
    unfold cell_data. rewrite H1, H2. split; reflexivity. }
  destruct (HQ (i, 0, 0)%Z (or_introl eq_refl)) as (A0 & A1). destruct (HQ (i + 1, 0, 0)%Z (or_intror eq_refl)) as (A2 & A3).
  unfold herm. rewrite EB. cbn [cstep]. unfold hermite1. cbn [f_phi].
  rewrite A0, A1, A2, A3. fold s0 s1.
  change (vx (hs n bmin bmax)) with h.
  assert (Ee : vx (locp 1 n pad bmin bmax (i, 0, 0)%Z x) = t - (IZR pad - 1)).
  { pose proof (locp_get 1 n pad bmin bmax (i, 0, 0)%Z x AX) as E. pose proof (loc_get 1 n bmin bmax (i, 0, 0)%Z x AX) as E'.
    cbn [used vget ccoord] in E, E'. rewrite E, E'. unfold t, lc, lattice_coord, centre. cbn [vget]. fold h. field. lra. }
  rewrite Ee. cbn [nadd nsub nmul ndiv nofZ NumR].
  match goal with |- ?a * ?b + ?c * ?d + ?e * ?f + ?g * ?k = _ => idtac end.
  rewrite (bern_bezier _ (t - (IZR pad - 1))).
  destruct lim.
  - destruct (limiter_cp (cv s0) (cv_x s0) (cv s1) (cv_x s1) h) as (C0 & C3 & C12). cbv zeta in *.
    unfold inner. rewrite <- C12. cbn [fst snd]. rewrite C0, C3. reflexivity.
  - unfold inner, get_control_points, bezier, bez, one_third. cbn [c_30 c_21 c_12 c_03 fst snd].
    cbn [nadd nsub nmul ndiv nofZ NumR]. field.
Qed.

(** *** C24 *)
Lemma compute_frame {T} {NT : Num T} ov dim n pad bmin bmax (g : grid T) dim' n' pad' bmin' bmax' (gx : grid T)
    (xi : array (vec3 T)) (l : levelset T) :
  built ov dim n pad bmin bmax g -> levelset_on g l ->
  built ov dim' n' pad' bmin' bmax' gx -> array_on gx xi ->
  (forall c, interior_cell n' c -> padded_cell dim n pad c) ->
  (forall i j k x, interior_cell n' (i, j, k) -> aget ov gx xi i j k = Ok x ->
     exists f, interpolate ov g x l false = Ok f) ->
  exists l', hermite_compute ov gx xi g l = Ok l' /\ levelset_on g l' /\
    (forall i j k, interior_cell n' (i, j, k) -> exists x f,
       aget ov gx xi i j k = Ok x /\ interpolate ov g x l false = Ok f /\
       aget ov g (ls_phi_interp l') i j k = Ok (f_phi f) /\ aget ov g (ls_psi_interp l') i j k = Ok (f_psi f)) /\
    (forall i j k, padded_cell dim n pad (i, j, k) -> ~ interior_cell n' (i, j, k) ->
       aget ov g (ls_phi_interp l') i j k = aget ov g (ls_phi_interp l) i j k /\
       aget ov g (ls_psi_interp l') i j k = aget ov g (ls_psi_interp l) i j k) /\
    ls_phi l' = ls_phi l /\ ls_psi l' = ls_psi l /\ ls_mix l' = ls_mix l /\ ls_phi_prev l' = ls_phi_prev l /\
    ls_psi_prev l' = ls_psi_prev l /\ ls_mix_prev l' = ls_mix_prev l.
Proof.
  intros Hb Hl Hb' Hxi Hin Hint.
  pose proof (built_ok _ _ _ _ _ _ _ Hb) as F. pose proof (bf_ok _ _ _ _ _ _ _ F) as Hg.
  pose proof (built_ok _ _ _ _ _ _ _ Hb') as F'. pose proof (bf_ok _ _ _ _ _ _ _ F') as Hg'.
  pose proof (proj1 (array_on_shaped _ _ _ _ _ _ _ _ Hb') Hxi) as Sx.
  assert (Ec : array_cells xi = n').
  { rewrite <- (bf_n _ _ _ _ _ _ _ F'). apply Sx. }
  pose proof (fun A a => proj1 (array_on_shaped (A := A) _ _ _ _ _ _ _ a Hb)) as K.
  pose proof (fun A a => proj2 (array_on_shaped (A := A) _ _ _ _ _ _ _ a Hb)) as K'.
  assert (Rx : forall i j k, interior_cell n' (i, j, k) -> exists x, aget ov gx xi i j k = Ok x).
  { intros i j k Hc. assert (Hp : padded_cell dim' n' pad' (i, j, k)) by (eapply interior_padded; [apply Hb'|exact Hc]).
    assert (Hc' : gcell gx (i, j, k)) by (apply (built_gcell _ _ _ _ _ _ _ _ Hb'); exact Hp).
    rewrite (aget_peek_c ov) by auto. eapply peek_ok; eauto. }
  set (val := fun c : cell => match c with (i, j, k) =>
     match aget ov gx xi i j k with Ok x => match interpolate ov g x l false with Ok f => f | _ => mkFields (nofZ 0) vzero end
     | _ => mkFields (nofZ 0) vzero end end).
  destruct (hermite_loop ov g gx xi l val (interior n')) as (l' & E & D); auto.
  - apply K, Hl. - apply K, Hl. - apply interior_nodup.
  - intros c Hc. apply in_interior in Hc. apply (built_gcell _ _ _ _ _ _ _ _ Hb). auto.
  - intros i j k Hc. apply in_interior in Hc. destruct (Rx i j k Hc) as (x & Ex). exists x. split; [exact Ex|].
    destruct (Hint i j k x Hc Ex) as (f & Ef). unfold val. rewrite Ex, Ef. reflexivity.
  - destruct D as [(R1 & R2 & R3 & R4 & R5 & R6) (Q7 & Q8) Din Dout].
    exists l'. split; [unfold hermite_compute; rewrite Ec; exact E|]. split.
    { destruct Hl. split; rewrite ?R1, ?R2, ?R3, ?R4, ?R5, ?R6; auto. }
    split; [|split; [|repeat split; auto]].
    + intros i j k Hc. destruct (Rx i j k Hc) as (x & Ex). destruct (Hint i j k x Hc Ex) as (f & Ef).
      exists x, f. split; [exact Ex|]. split; [exact Ef|].
      assert (HG : gcell g (i, j, k)) by (apply (built_gcell _ _ _ _ _ _ _ _ Hb); auto).
      destruct (Din (i, j, k)) as (A & B); [apply in_interior; exact Hc|].
      rewrite !(aget_peek_c ov) by auto. rewrite A, B. unfold val. rewrite Ex, Ef. auto.
    + intros i j k Hp Hn. assert (HG : gcell g (i, j, k)) by (apply (built_gcell _ _ _ _ _ _ _ _ Hb); auto).
      rewrite !(aget_peek_c ov) by auto. apply Dout; auto. rewrite in_interior. exact Hn.
Qed.

(** *** C25 *)
Lemma linear_eval ov n pad bmin bmax g x (al : array R) i : built ov 1 n pad bmin bmax g -> (1 <= pad)%Z -> array_on g al ->
  proper_box 1 bmin bmax -> interp_defined ov 1 -> in_lattice 1 n bmin bmax x ->
  encloses 1 n bmin bmax x (i, 0, 0)%Z ->
  let h := spacing (vx bmin) (vx bmax) (vx n) in
  let t := (vx x - centre (vx bmin) (vx bmax) (vx n) i) / h - (IZR pad - 1) in
  exists a0 a1, aget ov g al i 0 0 = Ok a0 /\ aget ov g al (i + 1) 0 0 = Ok a1 /\
    linear_interp ov g x al = Ok ((1 - t) * a0 + t * a1).
Proof.
  intros Hb Hpad Ha Hbox Hdef Hx He h t.
  pose proof (built_ok _ _ _ _ _ _ _ Hb) as F. pose proof (bf_ok _ _ _ _ _ _ _ F) as Hg.
  pose proof (h_pos ov 1 n pad bmin bmax g Hb Hbox AX eq_refl) as Hh. cbn [vget] in Hh. fold h in Hh.
  assert (EB : bcell 1 n bmin bmax x = (i, 0, 0)%Z).
  { unfold bcell, bcoord. cbn [used Nat.leb vget].
    replace (Rfloor (lc n bmin bmax AX (vx x))) with i; [reflexivity|]. symmetry. apply Rfloor_unique.
    specialize (He AX). cbn [used vget ccoord] in He. unfold lc, lattice_coord, centre in *. cbn [vget]. rewrite plus_IZR in He.
    fold h in He |- *. set (z := IZR i) in *.
    assert (E : (vx x - vx bmin) / h * h = vx x - vx bmin) by (field; lra).
    set (q := (vx x - vx bmin) / h) in *. split.
    - apply Rmult_le_reg_r with h; lra.
    - apply Rmult_lt_reg_r with h; lra. }
  pose proof (bcoord_range ov 1 n pad bmin bmax g Hb Hbox x AX Hx eq_refl) as BR.
  assert (Ebi : bcoord 1 n bmin bmax x AX = i) by (unfold bcell in EB; congruence). rewrite Ebi in BR. cbn [vget] in BR.
  pose proof (good_int _ _ _ AX (proj1 Hb)) as (_ & G & _). cbn [vget] in G.
  destruct (base_pos ov 1 n pad bmin bmax g Hb Hpad Hbox Hdef x Hx) as (xb & Exb & Heta).
  pose proof (base_ok _ _ _ _ _ _ _ x Hb (lattice_fits ov 1 n pad bmin bmax g Hb Hbox x Hx)) as Ebase.
  set (b := base_of 1 n bmin bmax x) in *.
  assert (Ebx : vx b = i). { rewrite <- Ebi. reflexivity. }
  assert (Hpc : forall i', (-1 <= i' <= vx n)%Z -> gcell g (i', 0, 0)%Z).
  { intros i' Hi'. apply (built_gcell _ _ _ _ _ _ _ _ Hb). intros [| |]; cbn; lia. }
  pose proof (proj1 (array_on_shaped _ _ _ _ _ _ _ _ Hb) Ha) as Sa.
  destruct (peek_ok ov g al (i, 0, 0)%Z Hg Sa (Hpc i ltac:(lia))) as (a0 & E0).
  destruct (peek_ok ov g al (i + 1, 0, 0)%Z Hg Sa (Hpc (i + 1)%Z ltac:(lia))) as (a1 & E1).
  exists a0, a1. rewrite !(aget_peek_c ov) by (auto; apply Hpc; lia). split; [exact E0|]. split; [exact E1|].
  unfold linear_interp. rewrite Ebase. cbn [bind]. rewrite Ebx. rewrite (succ_ok ov) by lia. cbn [bind]. rewrite Exb. cbn [bind].
  assert (HW : ov = Wrap) by (destruct Hdef; [auto|discriminate]).
  assert (Hb0 : gcell_for ov g (vx b, vy b, vz b)).
  { apply (gfor ov 1 n pad bmin bmax g Hb Hpad); cbn [used Nat.leb]; auto. rewrite Ebx. lia. }
  unfold aget_v. cbn [vx vy vz].
  rewrite (aget_peek ov g al (vx b) (vy b) (vz b) Hg Hb0).
  rewrite <- (peek_project g al (vx b, vy b, vz b)). rewrite (bf_dim _ _ _ _ _ _ _ F).
  rewrite (project_base 1 n bmin bmax x b eq_refl), EB, E0. cbn [bind].
  rewrite (aget_peek_c ov) by (auto; apply Hpc; lia). rewrite E1. cbn [bind].
  specialize (Heta AX eq_refl). cbn [vget vmul vsub vx] in Heta.
  assert (Et : vget (locp 1 n pad bmin bmax (bcell 1 n bmin bmax x) x) AX = t).
  { rewrite EB. pose proof (locp_get 1 n pad bmin bmax (i, 0, 0)%Z x AX) as E. pose proof (loc_get 1 n bmin bmax (i, 0, 0)%Z x AX) as E'.
    cbn [used vget ccoord] in *. rewrite E, E'. unfold t, lc, lattice_coord, centre. cbn [vget]. fold h. field. lra. }
  cbn [vget] in Et. rewrite Et in Heta. cbn [nsub nmul nadd nofZ NumR] in *. rewrite Heta. reflexivity.
Qed.

Lemma linear_props ov n bmin bmax g x (al : array R) : built ov 1 n 1 bmin bmax g -> array_on g al ->
  proper_box 1 bmin bmax -> interp_defined ov 1 -> in_lattice 1 n bmin bmax x ->
  exists i a0 a1 v, padded_cell 1 n 1 (i, 0, 0)%Z /\ padded_cell 1 n 1 (i + 1, 0, 0)%Z /\
    centre (vx bmin) (vx bmax) (vx n) i <= vx x < centre (vx bmin) (vx bmax) (vx n) (i + 1) /\
    aget ov g al i 0 0 = Ok a0 /\ aget ov g al (i + 1) 0 0 = Ok a1 /\
    linear_interp ov g x al = Ok v /\ Rmin a0 a1 <= v <= Rmax a0 a1 /\
    v = a0 + (vx x - centre (vx bmin) (vx bmax) (vx n) i) / spacing (vx bmin) (vx bmax) (vx n) * (a1 - a0).
Proof.
  intros Hb Ha Hbox Hdef Hx.
  pose proof (base_encl ov 1 n bmin bmax g Hb Hbox x) as He.
  pose proof (h_pos ov 1 n 1 bmin bmax g Hb Hbox AX eq_refl) as Hh. cbn [vget] in Hh.
  pose proof (bcoord_range ov 1 n 1 bmin bmax g Hb Hbox x AX Hx eq_refl) as BR. cbn [vget] in BR.
  unfold bcell in He. set (i := bcoord 1 n bmin bmax x AX) in *.
  assert (E0 : bcoord 1 n bmin bmax x AY = 0%Z /\ bcoord 1 n bmin bmax x AZ = 0%Z) by (split; reflexivity).
  rewrite (proj1 E0), (proj2 E0) in He. clearbody i.
  destruct (linear_eval ov n 1 bmin bmax g x al i Hb ltac:(lia) Ha Hbox Hdef Hx He) as (a0 & a1 & A0 & A1 & E). cbv zeta in E.
  specialize (He AX). cbn [used vget ccoord] in He.
  exists i, a0, a1. eexists. split; [intros [| |]; cbn; lia|]. split; [intros [| |]; cbn; lia|]. split; [exact He|].
  split; [exact A0|]. split; [exact A1|]. split; [exact E|].
  set (h := spacing (vx bmin) (vx bmax) (vx n)) in *. set (c := centre (vx bmin) (vx bmax) (vx n) i) in *.
  assert (Ec : centre (vx bmin) (vx bmax) (vx n) (i + 1) = c + h) by (unfold c, centre; fold h; rewrite plus_IZR; lra).
  rewrite Ec in He. set (t := (vx x - c) / h).
  assert (Et : t * h = vx x - c) by (unfold t; field; lra).
  assert (0 <= t < 1).
  { split; [apply Rmult_le_reg_r with h; lra|apply Rmult_lt_reg_r with h; lra]. }
  fold t. replace (t - (1 - 1)) with t by ring. split; [|ring].
  unfold Rmin, Rmax. destruct (Rle_dec a0 a1).
  - assert (0 <= t * (a1 - a0)) by (apply Rmult_le_pos; lra).
    assert (0 <= (1 - t) * (a1 - a0)) by (apply Rmult_le_pos; lra). lra.
  - assert (0 <= t * (a0 - a1)) by (apply Rmult_le_pos; lra).
    assert (0 <= (1 - t) * (a0 - a1)) by (apply Rmult_le_pos; lra). lra.
Qed.

Lemma linear_affine ov n pad bmin bmax g x (al : array R) (u w : R) : built ov 1 n pad bmin bmax g -> (1 <= pad)%Z -> array_on g al ->
  proper_box 1 bmin bmax -> interp_defined ov 1 -> in_lattice 1 n bmin bmax x ->
  (forall i, padded_cell 1 n pad (i, 0, 0)%Z -> exists p, node ov g i 0 0 = Ok p /\ aget ov g al i 0 0 = Ok (u + w * vx p)) ->
  linear_interp ov g x al = Ok (u + w * vx x).
Proof.
  intros Hb Hpad Ha Hbox Hdef Hx HS.
  pose proof (h_pos ov 1 n pad bmin bmax g Hb Hbox AX eq_refl) as Hh. cbn [vget] in Hh.
  pose proof (bcoord_range ov 1 n pad bmin bmax g Hb Hbox x AX Hx eq_refl) as BR. cbn [vget] in BR.
  set (i := bcoord 1 n bmin bmax x AX) in *.
  assert (He : encloses 1 n bmin bmax x (i, 0, 0)%Z).
  { intros [| |]; cbn [used Nat.leb ccoord vget]; try reflexivity.
    unfold i, bcoord. cbn [used vget]. pose proof (Rfloor_spec (lc n bmin bmax AX (vx x))) as S.
    set (z := Rfloor _) in *. unfold lc, lattice_coord, centre in *. cbn [vget] in *. rewrite plus_IZR.
    set (h := spacing _ _ _) in *. set (w' := IZR z) in *.
    assert (E : (vx x - vx bmin) / h * h = vx x - vx bmin) by (field; lra).
    set (q := (vx x - vx bmin) / h) in *. destruct S as [S1 S2].
    clearbody q h w'. apply Rmult_le_compat_r with (r := h) in S1; [|lra]. apply Rmult_lt_compat_r with (r := h) in S2; [|lra]. lra. }
  clearbody i.
  destruct (linear_eval ov n pad bmin bmax g x al i Hb Hpad Ha Hbox Hdef Hx He) as (a0 & a1 & A0 & A1 & E). cbv zeta in E.
  assert (Hp0 : padded_cell 1 n pad (i, 0, 0)%Z) by (intros [| |]; cbn; lia).
  assert (Hp1 : padded_cell 1 n pad (i + 1, 0, 0)%Z) by (intros [| |]; cbn; lia).
  destruct (HS i Hp0) as (p & Np & Sp). destruct (HS (i + 1)%Z Hp1) as (p' & Np' & Sp').
  destruct (node_position _ _ _ _ _ _ _ _ _ _ Hb Hp0) as (q & Nq & Vq). destruct (node_position _ _ _ _ _ _ _ _ _ _ Hb Hp1) as (q' & Nq' & Vq').
  rewrite Np in Nq; inversion Nq; subst q. rewrite Np' in Nq'; inversion Nq'; subst q'.
  specialize (Vq AX); specialize (Vq' AX). cbn [used vget ccoord] in Vq, Vq'.
  rewrite A0 in Sp; inversion Sp; subst a0. rewrite A1 in Sp'; inversion Sp'; subst a1.
  rewrite E. f_equal. rewrite Vq, Vq'. unfold centre. rewrite plus_IZR.
  set (h := spacing _ _ _) in *. field. lra.
Qed.

Lemma linear_frame {T} {NT : Num T} ov dim n pad bmin bmax (g : grid T) dim' n' pad' bmin' bmax' (gx : grid T)
    (xi : array (vec3 T)) (ga : grid T) (al r : array T) :
  built ov dim n pad bmin bmax g -> array_on g r ->
  built ov dim' n' pad' bmin' bmax' gx -> array_on gx xi ->
  (forall c, interior_cell n' c -> padded_cell dim n pad c) ->
  (forall i j k x, interior_cell n' (i, j, k) -> aget ov gx xi i j k = Ok x ->
     exists v, linear_interp ov ga x al = Ok v) ->
  exists r', linear_compute ov gx xi ga al g r = Ok r' /\ array_on g r' /\
    (forall i j k, interior_cell n' (i, j, k) -> exists x v,
       aget ov gx xi i j k = Ok x /\ linear_interp ov ga x al = Ok v /\ aget ov g r' i j k = Ok v) /\
    (forall i j k, padded_cell dim n pad (i, j, k) -> ~ interior_cell n' (i, j, k) ->
       aget ov g r' i j k = aget ov g r i j k).
Proof.
  intros Hb Hr Hb' Hxi Hin Hint.
  pose proof (built_ok _ _ _ _ _ _ _ Hb) as F. pose proof (bf_ok _ _ _ _ _ _ _ F) as Hg.
  pose proof (built_ok _ _ _ _ _ _ _ Hb') as F'. pose proof (bf_ok _ _ _ _ _ _ _ F') as Hg'.
  pose proof (proj1 (array_on_shaped _ _ _ _ _ _ _ _ Hb') Hxi) as Sx.
  pose proof (proj1 (array_on_shaped _ _ _ _ _ _ _ _ Hb) Hr) as Sr.
  assert (Rx : forall i j k, interior_cell n' (i, j, k) -> exists x, aget ov gx xi i j k = Ok x).
  { intros i j k Hc. assert (Hp : padded_cell dim' n' pad' (i, j, k)) by (eapply interior_padded; [apply Hb'|exact Hc]).
    assert (Hc' : gcell gx (i, j, k)) by (apply (built_gcell _ _ _ _ _ _ _ _ Hb'); exact Hp).
    rewrite (aget_peek_c ov) by auto. eapply peek_ok; eauto. }
  set (val := fun c : cell => match c with (i, j, k) =>
     match aget ov gx xi i j k with Ok x => match linear_interp ov ga x al with Ok f => f | _ => nofZ 0 end
     | _ => nofZ 0 end end).
  assert (HU : forall c, In c (interior n') -> gcell g c).
  { intros c Hc. apply in_interior in Hc. apply (built_gcell _ _ _ _ _ _ _ _ Hb). auto. }
  destruct (loop_cells ov g (fun c _ => val c) (linear_body ov gx xi ga al g) (interior n') r) as (r' & E & S' & _ & Hi & Ho); auto.
  - apply interior_nodup.
  - intros s [[i j] k] y Hs _ Hc _. pose proof (HU _ Hc). apply in_interior in Hc. unfold linear_body.
    destruct (Rx i j k Hc) as (x & Ex). destruct (Hint i j k x Hc Ex) as (v & Ev). unfold val. rewrite Ex. cbn [bind].
    rewrite Ev. cbn [bind]. apply aset_poke; auto.
  - exists r'. split; [unfold linear_compute, num_cells; rewrite (bf_n _ _ _ _ _ _ _ F'); exact E|].
    split; [apply (array_on_shaped _ _ _ _ _ _ _ _ Hb); exact S'|]. split.
    + intros i j k Hc. destruct (Rx i j k Hc) as (x & Ex). destruct (Hint i j k x Hc Ex) as (v & Ev).
      exists x, v. split; [exact Ex|]. split; [exact Ev|].
      assert (Hc' : In (i, j, k) (interior n')) by (apply in_interior; exact Hc). pose proof (HU _ Hc') as HG.
      destruct (peek_ok ov g r _ Hg Sr HG) as (y & Ey).
      rewrite (aget_peek_c ov) by auto. rewrite (Hi _ y Hc' Ey). unfold val. rewrite Ex, Ev. reflexivity.
    + intros i j k Hp Hn. assert (HG : gcell g (i, j, k)) by (apply (built_gcell _ _ _ _ _ _ _ _ Hb); auto).
      rewrite !(aget_peek_c ov) by auto. apply Ho; auto. rewrite in_interior. exact Hn.
Qed.

(** C20, C21 with a name for the interpolant *)
Lemma interp_field ov dim n bmin bmax g l : built ov dim n 1 bmin bmax g -> levelset_on g l ->
  proper_box dim bmin bmax -> interp_defined ov dim ->
  exists F, (forall y, in_lattice dim n bmin bmax y -> interpolate ov g y l false = Ok (F y)) /\
   (forall x a, in_lattice dim n bmin bmax x -> used dim a = true ->
      vget bmin a - spacing (vget bmin a) (vget bmax a) (vget n a) / 2 < vget x a ->
      derivable_pt_lim (fun t => f_phi (F (vset x a t))) (vget x a) (vget (f_psi (F x)) a)) /\
   (forall x a, in_lattice dim n bmin bmax x -> used dim a = false -> vget (f_psi (F x)) a = 0) /\
   (forall x eps, in_lattice dim n bmin bmax x -> 0 < eps ->
      exists d, 0 < d /\ forall y, in_lattice dim n bmin bmax y ->
        (forall a, used dim a = true -> Rabs (vget y a - vget x a) < d) ->
        Rabs (f_phi (F y) - f_phi (F x)) < eps /\
        forall a, Rabs (vget (f_psi (F y)) a - vget (f_psi (F x)) a) < eps).
Proof.
  intros Hb Hl Hbox Hdef. exists (Fld ov g l). split; [|split; [|split]].
  - intros y Hy. eapply Fld_ok; eauto.
  - intros. eapply interp_gradient; eauto.
  - intros. eapply psi_unused; eauto.
  - intros x eps Hx He. eapply interp_continuous; eauto.
Qed.

Definition S_of (g : grid R) (l : levelset R) (c : cell) : cell_values :=
  let q := cell_data g l c in
  CV (q_phi q) (vx (q_psi q)) (vy (q_psi q)) (vz (q_psi q)) (q_m0 q) (q_m1 q) (q_m2 q) (q_m3 q).
Lemma stores_any ov dim n pad bmin bmax g l : built ov dim n pad bmin bmax g -> levelset_on g l ->
  stores ov dim n pad g l (S_of g l).
Proof.
  intros Hb Hl i j k Hp. cbv zeta. pose proof (built_ok _ _ _ _ _ _ _ Hb) as F. pose proof (bf_ok _ _ _ _ _ _ _ F) as Hg.
  assert (HG : gcell g (i, j, k)) by (apply (built_gcell _ _ _ _ _ _ _ _ Hb); auto).
  pose proof (fun A a => proj1 (array_on_shaped (A := A) _ _ _ _ _ _ _ a Hb)) as K.
  rewrite !(aget_peek_c ov) by auto.
  destruct (peek_ok ov g _ _ Hg (K _ _ (on_phi_prev _ _ Hl)) HG) as (p & Ep).
  destruct (peek_ok ov g _ _ Hg (K _ _ (on_psi_prev _ _ Hl)) HG) as (s & Es).
  destruct (peek_ok ov g _ _ Hg (K _ _ (on_mix_prev _ _ Hl)) HG) as (m & Em).
  unfold S_of, cell_data. rewrite Ep, Es, Em. cbn [val cv cv_x cv_y cv_z cv_xy cv_yz cv_zx cv_xyz q_phi q_psi q_m0 q_m1 q_m2 q_m3].
  split; [reflexivity|]. split; [destruct s; reflexivity|]. f_equal.
  pose proof (on_mix_len _ _ Hl) as HL. rewrite Forall_forall in HL. specialize (HL m (vread_In _ _ _ Em)).
  rewrite (bf_dim _ _ _ _ _ _ _ F) in HL. pose proof (proj1 (proj1 Hb)) as Hd.
  assert (D : dim = 1%nat \/ dim = 2%nat \/ dim = 3%nat) by lia.
  destruct D as [-> | [-> | ->]]; cbn [mixed_count] in HL.
  - destruct m; [reflexivity|discriminate].
  - destruct m as [|m0 [|]]; try discriminate. reflexivity.
  - destruct m as [|m0 [|m1 [|m2 [|m3 [|]]]]]; try discriminate. reflexivity.
Qed.

(** *** limiting changes every quadratic *)
Lemma limited_quadratic ov n bmin bmax g l x u w q : built ov 1 n 1 bmin bmax g -> levelset_on g l ->
  proper_box 1 bmin bmax -> interp_defined ov 1 -> in_lattice 1 n bmin bmax x ->
  (forall i, padded_cell 1 n 1 (i, 0, 0)%Z -> exists p s, node ov g i 0 0 = Ok p /\
     aget ov g (ls_phi_prev l) i 0 0 = Ok (u + w * vx p + q * vx p ^ 2) /\
     aget ov g (ls_psi_prev l) i 0 0 = Ok s /\ vx s = w + 2 * q * vx p) ->
  exists i f, let c := centre (vx bmin) (vx bmax) (vx n) in
    c i <= vx x < c (i + 1)%Z /\ interpolate ov g x l true = Ok f /\
    f_phi f = (u + w * vx x + q * vx x ^ 2) + q * (vx x - c i) * (c (i + 1)%Z - vx x).
Proof.
  intros Hb Hl Hbox Hdef Hx HS.
  pose proof (base_encl ov 1 n bmin bmax g Hb Hbox x) as He.
  pose proof (h_pos ov 1 n 1 bmin bmax g Hb Hbox AX eq_refl) as Hh. cbn [vget] in Hh.
  pose proof (bcoord_range ov 1 n 1 bmin bmax g Hb Hbox x AX Hx eq_refl) as BR. cbn [vget] in BR.
  unfold bcell in He. set (i := bcoord 1 n bmin bmax x AX) in *.
  assert (E0 : bcoord 1 n bmin bmax x AY = 0%Z /\ bcoord 1 n bmin bmax x AZ = 0%Z) by (split; reflexivity).
  rewrite (proj1 E0), (proj2 E0) in He. clearbody i.
  pose proof (stores_any ov 1 n 1 bmin bmax g l Hb Hl) as HT.
  destruct (interp_1d ov n 1 bmin bmax g l (S_of g l) x i true Hb ltac:(lia) Hl Hbox Hdef HT Hx He) as (f & Ef & Vf).
  cbv zeta in Vf. exists i, f. cbv zeta. specialize (He AX). cbn [used vget ccoord] in He. split; [exact He|]. split; [exact Ef|].
  rewrite Vf. clear Vf.
  assert (Hv : forall i', (-1 <= i' <= vx n)%Z -> cv (S_of g l (i', 0, 0)%Z) = u + w * centre (vx bmin) (vx bmax) (vx n) i' + q * centre (vx bmin) (vx bmax) (vx n) i' ^ 2 /\
     cv_x (S_of g l (i', 0, 0)%Z) = w + 2 * q * centre (vx bmin) (vx bmax) (vx n) i').
  { intros i' Hi'. assert (Hp : padded_cell 1 n 1 (i', 0, 0)%Z) by (intros [| |]; cbn; lia).
    destruct (HS i' Hp) as (p & s & Np & A & B & C). destruct (HT _ _ _ Hp) as (A' & B' & _).
    destruct (node_at_centre_pad1 _ _ _ _ _ _ _ _ _ Hb Hp) as (p' & Np' & Vp).
    rewrite Np in Np'; inversion Np'; subst p'. specialize (Vp AX). cbn [used vget ccoord] in Vp.
    rewrite A in A'. rewrite B in B'. rewrite <- Vp. split; [congruence|]. rewrite <- C. injection B' as E'. rewrite E'. reflexivity. }
  destruct (Hv i) as (V0 & W0); [lia|]. destruct (Hv (i + 1)%Z) as (V1 & W1); [lia|].
  rewrite V0, W0, V1, W1. set (h := spacing (vx bmin) (vx bmax) (vx n)) in *. set (c := centre (vx bmin) (vx bmax) (vx n) i) in *.
  assert (Ec : centre (vx bmin) (vx bmax) (vx n) (i + 1) = c + h) by (unfold c, centre; fold h; rewrite plus_IZR; ring).
  rewrite Ec. clearbody c h. unfold limited.
  assert (K : 0 <= (q * h ^ 2) * (q * h ^ 2)) by apply (Rle_0_sqr (q * h ^ 2)).
  destruct (Rlt_dec _ _) as [r|r].
  { exfalso. revert r. apply Rle_not_lt. ring_simplify. ring_simplify in K. lra. }
  destruct (Rlt_dec _ 0) as [r'|r'].
  { exfalso. revert r'. apply Rle_not_lt. match goal with |- 0 <= ?e => replace e with ((q * h ^ 2) * (q * h ^ 2) / 2) by field end. lra. }
  destruct (Rlt_dec _ 0) as [r''|r''].
  { exfalso. revert r''. apply Rle_not_lt. match goal with |- 0 <= ?e => replace e with ((q * h ^ 2) * (q * h ^ 2) / 2) by field end. lra. }
  cbn [fst snd]. unfold bezier. field. lra.
Qed.

(** *** Concrete cases *)
Definition lo1 : vec3 R := V3 (-1) (-1) (-1).
Definition hi1 : vec3 R := V3 1 1 1.
Lemma unit_box dim : proper_box dim lo1 hi1.
Proof. intros [| |] _; cbn; lra. Qed.
Lemma unit_lattice dim n pad : good_sizes dim n pad -> in_lattice dim n lo1 hi1 (V3 (1/7) (2/7) (3/7)).
Proof.
  intros Hg a Hu. pose proof (good_used _ _ _ a Hg Hu) as Hn.
  assert (0 < spacing (vget lo1 a) (vget hi1 a) (vget n a)) by (apply spacing_pos; [destruct a; cbn; lra|exact Hn]).
  cbv zeta. destruct a; cbn [vget lo1 hi1 vx vy vz] in *; lra.
Qed.
Lemma built_3d1 {T} {NT : Num T} ov (bmin bmax : vec3 T) : exists g, built ov 3 (V3 2 3 4)%Z 1 bmin bmax g.
Proof.
  apply built_exists.
  - split; [lia|]. split; [lia|]. split; [intros [| |]; cbn; lia|]. cbn. unfold INT_MAX. lia.
  - destruct ov; [left; reflexivity|exact I].
Qed.

(** a case with any polynomial *)
Lemma sampled_case ov dim n pad c : good_sizes dim n pad -> arith_ok ov dim n pad -> interp_defined ov dim ->
  exists g l x, built ov dim n pad lo1 hi1 g /\ levelset_on g l /\ proper_box dim lo1 hi1 /\
    sampled_nodes ov dim n pad g l c /\ in_lattice dim n lo1 hi1 x.
Proof.
  intros H1 H2 H3. destruct (built_exists ov dim n pad lo1 hi1 H1 H2) as (g & Hb).
  destruct (sampled_nodes_exists ov dim n pad lo1 hi1 g c Hb) as (l & Hl & HS).
  exists g, l, (V3 (1/7) (2/7) (3/7)). split; [exact Hb|]. split; [exact Hl|]. split; [apply unit_box|]. split; [exact HS|]. eapply unit_lattice; eauto.
Qed.
Lemma stored_case ov dim n pad S : good_sizes dim n pad -> arith_ok ov dim n pad -> interp_defined ov dim ->
  exists g l x, built ov dim n pad lo1 hi1 g /\ levelset_on g l /\ proper_box dim lo1 hi1 /\
    stores ov dim n pad g l S /\ in_lattice dim n lo1 hi1 x.
Proof.
  intros H1 H2 H3. destruct (built_exists ov dim n pad lo1 hi1 H1 H2) as (g & Hb).
  destruct (stores_exists ov dim n pad lo1 hi1 g S Hb) as (l & Hl & HS).
  exists g, l, (V3 (1/7) (2/7) (3/7)). split; [exact Hb|]. split; [exact Hl|]. split; [apply unit_box|]. split; [exact HS|]. eapply unit_lattice; eauto.
Qed.
Lemma good_3d1 : good_sizes 3 (V3 2 3 4)%Z 1.
Proof. split; [lia|]. split; [lia|]. split; [intros [| |]; cbn; lia|]. cbn. unfold INT_MAX. lia. Qed.
