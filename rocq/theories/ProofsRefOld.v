(** The first serial program: one step and the whole run as functions of the data. *)
From Coq Require Import ZArith List Permutation Bool Lia String Reals Lra.
From Verif Require Import Base Num NumB64 ModelVec ModelRefMath ModelRefMem ModelRef ModelRefOld SpecRefPar SpecRefRun SpecRefOld ProofsBase ProofsGridProps ProofsRefMem ProofsRefPar ProofsRefRun ProofsRefUpd ProofsRefMix ProofsRefSearch ProofsRefStep ProofsRefMain.
Open Scope Z_scope.

(** *** the visits of a node *)
Definition node_of (v : Z * Z * Z) : Z * Z := match v with (i, j, k) =>
  ((if (k =? 2) || (k =? 3) then i + 1 else i), (if (k =? 1) || (k =? 3) then j + 1 else j))%bool end.
Definition of_node (i j : Z) (v : Z * Z * Z) : bool := ((fst (node_of v) =? i) && (snd (node_of v) =? j))%bool.

Lemma filter_flat_map {A B} (P : B -> bool) (g : A -> list B) l : filter P (flat_map g l) = flat_map (fun a => filter P (g a)) l.
Proof. induction l as [|a l IH]; cbn; [reflexivity|]. rewrite filter_app, IH. reflexivity. Qed.
Lemma map_flat_map {A B C} (h : B -> C) (g : A -> list B) l : map h (flat_map g l) = flat_map (fun a => map h (g a)) l.
Proof. induction l as [|a l IH]; cbn; [reflexivity|]. rewrite map_app, IH. reflexivity. Qed.
Lemma flat_map_map {A B C} (h : A -> B) (g : B -> list C) l : flat_map g (map h l) = flat_map (fun a => g (h a)) l.
Proof. induction l as [|a l IH]; cbn; [reflexivity|]. rewrite IH. reflexivity. Qed.
Lemma flat_map_flat_map {A B C} (h : A -> list B) (g : B -> list C) l : flat_map g (flat_map h l) = flat_map (fun a => flat_map g (h a)) l.
Proof. induction l as [|a l IH]; cbn; [reflexivity|]. rewrite flat_map_app, IH. reflexivity. Qed.
Lemma flat_map_ext' {A B} (f g : A -> list B) l : (forall a, In a l -> f a = g a) -> flat_map f l = flat_map g l.
Proof. induction l as [|a l IH]; intros H; cbn; [reflexivity|]. rewrite H by (left; reflexivity). rewrite IH; [reflexivity|]. intros; apply H; right; assumption. Qed.

(** at most two neighbouring indices contribute *)
Lemma two_of {A} (f : Z -> list A) a n : (forall k, k <> a - 1 -> k <> a -> f k = []) ->
  flat_map f (range 0 n) = (if (0 <=? a - 1) && (a - 1 <? n) then f (a - 1) else []) ++ (if (0 <=? a) && (a <? n) then f a else []).
Proof.
  intros H. destruct (Z.lt_ge_cases n 0) as [L|L].
  - replace (range 0 n) with (@nil Z) by (unfold range; replace (Z.to_nat (n - 0)) with O by lia; reflexivity).
    replace ((0 <=? a - 1) && (a - 1 <? n))%bool with false by lia. replace ((0 <=? a) && (a <? n))%bool with false by lia. reflexivity.
  - rewrite range_seq by lia. assert (En : n = Z.of_nat (Z.to_nat n)) by lia. revert En. generalize (Z.to_nat n) as q. intros q ->. clear L.
    induction q as [|q IH].
    + cbn [seq map flat_map]. change (Z.of_nat 0) with 0.
      destruct (Z.leb_spec 0 (a - 1)); destruct (Z.ltb_spec (a - 1) 0); destruct (Z.leb_spec 0 a); destruct (Z.ltb_spec a 0); try lia; reflexivity.
    + rewrite seq_S, map_app, flat_map_app, IH, Nat2Z.inj_succ. clear IH. cbn [map flat_map Nat.add]. set (z := Z.of_nat q). assert (0 <= z) by (unfold z; lia). clearbody z. clear q. rewrite app_nil_r.
      cbn [Z.add].
      destruct (Z.leb_spec 0 (a - 1)); destruct (Z.leb_spec 0 a); try lia; cbn [andb];
      repeat match goal with |- context [?u <? ?v] => destruct (Z.ltb_spec u v); try lia end; rewrite ?app_nil_r; cbn [app];
      first [rewrite (H z) by lia; rewrite ?app_nil_r; reflexivity | replace z with a by lia; reflexivity | replace z with (a - 1) by lia; reflexivity].
Qed.

Lemma cell_visits i j r c : map fst (filter (of_node i j) (map (fun k => (r, c, k)) (range 0 4))) =
  if (((i =? r) || (i =? r + 1)) && ((j =? c) || (j =? c + 1)))%bool then [(r, c)] else [].
Proof.
  change (range 0 4) with [0; 1; 2; 3]. cbn [map filter]. unfold of_node. cbn [node_of fst snd Z.eqb Pos.eqb orb].
  destruct (Z.eqb_spec i r) as [->|N1]; [|destruct (Z.eqb_spec i (r + 1)) as [->|N2]]; destruct (Z.eqb_spec j c) as [->|N3];
  try (destruct (Z.eqb_spec j (c + 1)) as [->|N4]); cbn [orb andb].
  all: repeat match goal with |- context [?a =? ?b] => first [replace (a =? b) with true by lia | replace (a =? b) with false by lia] end; cbn [andb map fst]; reflexivity.
Qed.

Lemma visits_node nx ny i j : map fst (filter (of_node i j) (old_visits nx ny)) = touching nx ny i j.
Proof.
  unfold old_visits, nodes. rewrite flat_map_flat_map, filter_flat_map, map_flat_map.
  rewrite (flat_map_ext' _ (fun r => if ((i =? r) || (i =? r + 1))%bool then
      (if (0 <=? j - 1) && (j - 1 <? nx - 1) then [(r, j - 1)] else []) ++ (if (0 <=? j) && (j <? nx - 1) then [(r, j)] else []) else [])).
  - rewrite two_of with (a := i).
    2:{ intros k H1 H2. replace ((i =? k) || (i =? k + 1))%bool with false by lia. reflexivity. }
    rewrite Z.eqb_refl. replace (i =? i - 1 + 1) with true by lia. rewrite orb_true_r. cbn [orb].
    unfold touching. cbn [filter fst snd].
    destruct ((0 <=? i - 1) && (i - 1 <? ny - 1))%bool eqn:E1; destruct ((0 <=? i) && (i <? ny - 1))%bool eqn:E2; cbn [andb];
    destruct (0 <=? j - 1) eqn:E3; destruct (j - 1 <? nx - 1) eqn:E4; destruct (0 <=? j) eqn:E5; destruct (j <? nx - 1) eqn:E6; cbn [andb app]; reflexivity.
  - intros r _. rewrite flat_map_map, filter_flat_map, map_flat_map.
    rewrite (flat_map_ext' _ (fun c => if (((i =? r) || (i =? r + 1)) && ((j =? c) || (j =? c + 1)))%bool then [(r, c)] else [])) by (intros; apply cell_visits).
    destruct ((i =? r) || (i =? r + 1))%bool; cbn [andb].
    + rewrite two_of with (a := j).
      2:{ intros k H1 H2. replace ((j =? k) || (j =? k + 1))%bool with false by lia. reflexivity. }
      rewrite Z.eqb_refl. replace (j =? j - 1 + 1) with true by lia. rewrite orb_true_r. reflexivity.
    + induction (range 0 (nx - 1)); cbn; auto.
Qed.

Lemma first_use_app use l1 l2 : first_use use (l1 ++ l2) = match first_use use l1 with Some r => Some r | None => first_use use l2 end.
Proof. induction l1 as [|c l IH]; cbn; [reflexivity|]. destruct (use c =? 0); [exact IH|reflexivity]. Qed.
Lemma first_use_nz use l k c : first_use use l = Some (k, c) -> k <> 0 /\ k = use c /\ In c l.
Proof.
  induction l as [|a l IH]; cbn; [discriminate|]. destruct (Z.eqb_spec (use a) 0); intros H.
  - destruct (IH H) as (A & B & C). auto.
  - injection H as <- <-. auto.
Qed.

Section Step.
Context {T : Type} {NT : Num T}.
Implicit Types (m : mem T).

Lemma run_rdcell m a rows cols f r c (k : quad T -> prog T) : holds a rows cols f m ->
  0 <= r < rows - 1 -> 0 <= c < cols - 1 -> run (rdcell a r c k) m = run (k (quad_at f r c)) m.
Proof.
  intros H Hy Hx. unfold rdcell.
  rewrite (run_rd _ _ _ _ (H r c ltac:(lia) ltac:(lia))), (run_rd _ _ _ _ (H r (c + 1) ltac:(lia) ltac:(lia))),
    (run_rd _ _ _ _ (H (r + 1) c ltac:(lia) ltac:(lia))), (run_rd _ _ _ _ (H (r + 1) (c + 1) ltac:(lia) ltac:(lia))). reflexivity.
Qed.

Lemma use_count (s : settings T) x y xa ya i j r c :
  old_count (s_nx s) (s_ny s) (s_xlim1 s) (s_xlim2 s) (s_ylim1 s) (s_ylim2 s) (x c) (x (c + 1)) (y r) (y (r + 1)) xa ya i j = cell_use s x y xa ya i j (r, c).
Proof. unfold old_count, cell_use, between, beyond, grid_corner. cbv zeta. cbn [fst snd]. repeat destruct (_ && _)%bool; reflexivity. Qed.

(** what one visit may write *)
Definition own (n : Z * Z) (l : loc) : bool := at_node [Tracker; Phi; Psix; Psiy] n l.

Definition node_val (F : flow T) (s : settings T) (x y : Z -> T) (t : Z) (f : fields T) (i j : Z) (u : option (Z * (Z * Z))) : T * T * T :=
  let p := back_trace F (s_rk3 s) (x j) (y i) t (s_dt s) (s_Tp s) in
  match u with
  | None => (f_phi f i j, f_x f i j, f_y f i j)
  | Some (k, (r, c)) =>
      updated F (s_psischeme s) (s_rk3 s) t (s_dt s) (s_Tp s) (s_dx s) (s_dy s) (x c) (y r) (x j) (y i) (fst p) (snd p)
        (quad_at (f_phi f) r c) (quad_at (f_x f) r c) (quad_at (f_y f) r c) (quad_at (f_xy f) r c)
        k (f_phi f i j) (f_x f i j) (f_y f i j) (f_xy f i j)
  end.

Lemma body_run F (s : settings T) x y t f m r c k i j tr p px py :
  let nx := s_nx s in let ny := s_ny s in
  0 <= r < ny - 1 -> 0 <= c < nx - 1 -> node_of (r, c, k) = (i, j) -> 0 <= i < ny -> 0 <= j < nx ->
  nodes_at nx ny x y m -> holds MPhi ny nx (f_phi f) m -> holds MPsix ny nx (f_x f) m -> holds MPsiy ny nx (f_y f) m -> holds MPsixy ny nx (f_xy f) m ->
  m (Psixy, i, j) = Some (D (f_xy f i j)) ->
  m (Tracker, i, j) = Some (U tr) -> m (Phi, i, j) = Some (D p) -> m (Psix, i, j) = Some (D px) -> m (Psiy, i, j) = Some (D py) ->
  let q := back_trace F (s_rk3 s) (x j) (y i) t (s_dt s) (s_Tp s) in
  let u := cell_use s x y (fst q) (snd q) i j (r, c) in
  let new := updated F (s_psischeme s) (s_rk3 s) t (s_dt s) (s_Tp s) (s_dx s) (s_dy s) (x c) (y r) (x j) (y i) (fst q) (snd q)
        (quad_at (f_phi f) r c) (quad_at (f_x f) r c) (quad_at (f_y f) r c) (quad_at (f_xy f) r c) u p px py (f_xy f i j) in
  exists m', run (old_body F s (s_dx s) (s_dy s) t (r, c, k)) m = Ok m' /\
    (forall l, own (i, j) l = false -> m' l = m l) /\
    (tr <> 0 -> forall l, m' l = m l) /\
    (tr = 0 -> m' (Tracker, i, j) = Some (U u) /\ m' (Phi, i, j) = Some (D (fst (fst new))) /\ m' (Psix, i, j) = Some (D (snd (fst new))) /\ m' (Psiy, i, j) = Some (D (snd new))).
Proof.
  intros nx ny Hr Hc En Hi Hj [Hx Hy] M1 M2 M3 M4 W Tr P0 P1 P2 q u new.
  cbn [node_of] in En. injection En as Ei Ej. unfold old_body. cbv zeta. rewrite Ei, Ej.
  rewrite (run_rdcell _ _ ny nx (f_phi f)) by assumption. rewrite (run_rdcell _ _ ny nx (f_x f)) by assumption.
  rewrite (run_rdcell _ _ ny nx (f_y f)) by assumption. rewrite (run_rdcell _ _ ny nx (f_xy f)) by assumption.
  rewrite (run_rdu _ _ _ _ Tr). destruct (Z.eqb_spec tr 0) as [E0|N0].
  2:{ cbn [run]. exists m. split; [reflexivity|]. split; [reflexivity|]. split; [reflexivity|]. intros; congruence. }
  rewrite (run_rd _ _ (x j)) by (apply Hx; lia). rewrite (run_rd _ _ (y i)) by (apply Hy; lia).
  rewrite (run_rd _ _ (x c)) by (apply Hx; lia). rewrite (run_rd _ _ (x (c + 1))) by (apply Hx; lia).
  rewrite (run_rd _ _ (y r)) by (apply Hy; lia). rewrite (run_rd _ _ (y (r + 1))) by (apply Hy; lia).
  rewrite (use_count s x y). fold q u.
  assert (U4 : u = 0 \/ u = 1 \/ u = 2 \/ u = 3 \/ u = 4).
  { unfold u, cell_use. cbv zeta. destruct (between (x _) _ _), (between (y _) _ _); try destruct (beyond _ _ _); try destruct (grid_corner _ _ _ _); auto 6. }
  assert (Fr : forall l a, own (i, j) l = false -> existsb (arr_eqb a) [Tracker; Phi; Psix; Psiy] = true -> loc_eqb (a, i, j) l = false).
  { intros [[b i'] j'] a Ho Ha. unfold own in Ho. cbn [at_node fst snd] in Ho. cbn [loc_eqb].
    destruct (arr_eqb a b) eqn:Eb; [|reflexivity]. assert (a = b) by (destruct a, b; try discriminate; reflexivity). subst b. rewrite Ha in Ho. cbn [andb] in Ho. cbn [andb].
    rewrite (Z.eqb_sym i), (Z.eqb_sym j) . first [exact Ho | rewrite (Z.eqb_sym i'), (Z.eqb_sym j'); exact Ho]. }
  unfold new. clearbody u. clear new. subst tr. unfold updated. cbv zeta.
  Ltac cut_m Fr := split; [intros l Hl; unfold upd; repeat rewrite (Fr l _ Hl) by reflexivity; reflexivity|]; split; [intros; congruence|]; intros _; repeat split; look; first [reflexivity|assumption].
  destruct U4 as [->|[->|[->|[->| ->]]]].
  - cbn [run]. exists m. split; [reflexivity|]. cut_m Fr.
  - erewrite run_wr by exact P0. destruct (String.eqb "Heuns" (s_psischeme s)); [|destruct (String.eqb "SuperConsistent" (s_psischeme s))].
    + erewrite run_wr by (look; exact P1). erewrite run_wr by (look; exact P2). erewrite run_wr by (look; exact Tr). cbn [run]. eexists; split; [reflexivity|]. cut_m Fr.
    + erewrite run_wr by (look; exact P1). erewrite run_wr by (look; exact P2). erewrite run_wr by (look; exact Tr). cbn [run]. eexists; split; [reflexivity|]. cut_m Fr.
    + erewrite run_wr by (look; exact Tr). cbn [run]. eexists; split; [reflexivity|]. cut_m Fr.
  - erewrite run_rd by exact P2. erewrite run_wr by exact P0. erewrite run_rd by (look; exact W). erewrite run_rd by (look; exact P1).
    erewrite run_wr by (look; exact P1). erewrite run_wr by (look; exact Tr). cbn [run]. eexists; split; [reflexivity|]. cut_m Fr.
  - erewrite run_rd by exact P1. erewrite run_wr by exact P0. erewrite run_rd by (look; exact W). erewrite run_rd by (look; exact P2).
    erewrite run_wr by (look; exact P2). erewrite run_wr by (look; exact Tr). cbn [run]. eexists; split; [reflexivity|]. cut_m Fr.
  - erewrite run_rd by exact P0. erewrite run_rd by exact P1. erewrite run_rd by exact P2. erewrite run_wr by exact P0. erewrite run_wr by (look; exact Tr).
    cbn [run]. eexists; split; [reflexivity|]. cut_m Fr.
Qed.

Lemma in_visits nx ny r c k : In (r, c, k) (old_visits nx ny) -> 0 <= r < ny - 1 /\ 0 <= c < nx - 1 /\ 0 <= k < 4.
Proof.
  unfold old_visits. intros H. apply in_flat_map in H as ([r' c'] & Hn & Hk). apply in_nodes in Hn. apply in_map_iff in Hk as (k' & E & Hk).
  apply in_range in Hk. injection E as <- <- <-. lia.
Qed.

(** the cells that have been visited for node (i,j) decide its contents *)
Definition seen (F : flow T) (s : settings T) (x y : Z -> T) (t : Z) (pre : list (Z * Z * Z)) (i j : Z) : option (Z * (Z * Z)) :=
  let q := back_trace F (s_rk3 s) (x j) (y i) t (s_dt s) (s_Tp s) in
  first_use (cell_use s x y (fst q) (snd q) i j) (map fst (filter (of_node i j) pre)).

Lemma visits_loop F (s : settings T) x y t f m :
  let nx := s_nx s in let ny := s_ny s in
  nodes_at nx ny x y m -> contains nx ny f m -> holdsu Tracker ny nx (fun _ _ => 0) m ->
  exists m', runs (map (old_body F s (s_dx s) (s_dy s) t) (old_visits nx ny)) m = Ok m' /\
    (forall a i j, existsb (arr_eqb a) [Tracker; Phi; Psix; Psiy] = false -> m' (a, i, j) = m (a, i, j)) /\
    holdsu Tracker ny nx (fun i j => match seen F s x y t (old_visits nx ny) i j with Some (k, _) => k | None => 0 end) m' /\
    holds Phi ny nx (fun i j => fst (fst (old_node F s x y t f i j))) m' /\
    holds Psix ny nx (fun i j => snd (fst (old_node F s x y t f i j))) m' /\
    holds Psiy ny nx (fun i j => snd (old_node F s x y t f i j)) m'.
Proof.
  intros nx ny [Hx Hy] (C1 & C2 & C3 & C4 & C5 & C6 & C7 & C8) Ht. unfold runs. rewrite forM_map.
  set (val pre i j := node_val F s x y t f i j (seen F s x y t pre i j)).
  set (use pre i j := match seen F s x y t pre i j with Some (k, _) => k | None => 0 end).
  destruct (forM_inv (fun pre m1 => (forall a i j, existsb (arr_eqb a) [Tracker; Phi; Psix; Psiy] = false -> m1 (a, i, j) = m (a, i, j)) /\
      holdsu Tracker ny nx (use pre) m1 /\ holds Phi ny nx (fun i j => fst (fst (val pre i j))) m1 /\
      holds Psix ny nx (fun i j => snd (fst (val pre i j))) m1 /\ holds Psiy ny nx (fun i j => snd (val pre i j)) m1)
    (fun m v => run (old_body F s (s_dx s) (s_dy s) t v) m) (old_visits nx ny) m) as (m' & H & I0 & I1 & I2 & I3 & I4).
  - split; [reflexivity|]. split; [exact Ht|]. repeat split; assumption.
  - intros pre [[r c] k] post m1 E (I0 & I1 & I2 & I3 & I4).
    assert (Hv : In (r, c, k) (old_visits nx ny)) by (rewrite E; apply in_or_app; right; left; reflexivity).
    apply in_visits in Hv as (Hr & Hc & Hk).
    destruct (node_of (r, c, k)) as [i j] eqn:En.
    assert (Hij : 0 <= i < ny /\ 0 <= j < nx).
    { cbn [node_of] in En. injection En as <- <-. destruct ((k =? 2) || (k =? 3))%bool, ((k =? 1) || (k =? 3))%bool; lia. }
    destruct Hij as [Hi Hj].
    assert (K : forall a ro co g, holds a ro co g m -> existsb (arr_eqb a) [Tracker; Phi; Psix; Psiy] = false -> holds a ro co g m1).
    { intros a ro co g Hg Ha i' j' Hi' Hj'. rewrite I0 by exact Ha. auto. }
    destruct (body_run F s x y t f m1 r c k i j (use pre i j) (fst (fst (val pre i j))) (snd (fst (val pre i j))) (snd (val pre i j)))
      as (m2 & R2 & O2 & N2 & Y2); try assumption; try (apply K; [assumption|reflexivity]); auto.
    { split; intros; rewrite I0 by reflexivity; auto. }
    { rewrite I0 by reflexivity. apply C4; assumption. }
    exists m2. split; [exact R2|].
    assert (Out : forall a i' j', existsb (arr_eqb a) [Tracker; Phi; Psix; Psiy] = false \/ (i', j') <> (i, j) -> m2 (a, i', j') = m1 (a, i', j')).
    { intros a i' j' D. apply O2. unfold own. cbn [at_node fst snd]. destruct D as [D|D].
      - rewrite D. reflexivity.
      - destruct (Z.eqb_spec i i'); destruct (Z.eqb_spec j j'); rewrite ?andb_false_r; try reflexivity. congruence. }
    (* other nodes have not been visited *)
    assert (S1 : forall i' j', (i', j') <> (i, j) -> seen F s x y t (pre ++ [(r, c, k)]) i' j' = seen F s x y t pre i' j').
    { intros i' j' D. unfold seen. cbv zeta. rewrite filter_app, map_app. cbn [filter]. unfold of_node at 2. rewrite En. cbn [fst snd].
      destruct (Z.eqb_spec i i'); destruct (Z.eqb_spec j j'); cbn [andb map]; rewrite ?app_nil_r; try reflexivity. congruence. }
    set (q := back_trace F (s_rk3 s) (x j) (y i) t (s_dt s) (s_Tp s)) in *.
    assert (S2 : seen F s x y t (pre ++ [(r, c, k)]) i j = match seen F s x y t pre i j with Some z => Some z | None =>
        let u := cell_use s x y (fst q) (snd q) i j (r, c) in if u =? 0 then None else Some (u, (r, c)) end).
    { unfold seen. cbv zeta. rewrite filter_app, map_app. cbn [filter]. unfold of_node at 2. rewrite En. cbn [fst snd].
      rewrite !Z.eqb_refl. cbn [andb map fst]. rewrite first_use_app. cbn [first_use]. reflexivity. }
    cbv zeta in N2, Y2, S2.
    assert (At : m2 (Tracker, i, j) = Some (U (use (pre ++ [(r, c, k)]) i j)) /\
      m2 (Phi, i, j) = Some (D (fst (fst (val (pre ++ [(r, c, k)]) i j)))) /\ m2 (Psix, i, j) = Some (D (snd (fst (val (pre ++ [(r, c, k)]) i j)))) /\
      m2 (Psiy, i, j) = Some (D (snd (val (pre ++ [(r, c, k)]) i j)))).
    { unfold use, val in *. rewrite S2. destruct (seen F s x y t pre i j) as [[k0 [r0 c0]]|] eqn:Es.
      - assert (k0 <> 0) by (apply (first_use_nz _ _ _ _ Es)). rewrite !N2 by assumption.
        specialize (I1 i j Hi Hj). specialize (I2 i j Hi Hj). specialize (I3 i j Hi Hj). specialize (I4 i j Hi Hj). cbv beta in I1, I2, I3, I4. rewrite Es in I1, I2, I3, I4. auto.
      - destruct (Y2 eq_refl) as (Z1 & Z2 & Z3 & Z4). cbn [node_val fst snd] in Z2, Z3, Z4.
        destruct (Z.eqb_spec (cell_use s x y (fst q) (snd q) i j (r, c)) 0) as [E0|N0].
        + rewrite E0 in Z1, Z2, Z3, Z4. cbn [updated fst snd] in Z2, Z3, Z4. cbn [node_val fst snd]. auto.
        + unfold node_val. cbv zeta. fold q. auto. }
    destruct At as (A1 & A2 & A3 & A4).
    assert (Same : forall i' j', (i', j') <> (i, j) -> val (pre ++ [(r, c, k)]) i' j' = val pre i' j' /\ use (pre ++ [(r, c, k)]) i' j' = use pre i' j').
    { intros i' j' D. unfold val, use. rewrite S1 by exact D. auto. }
    assert (Dec : forall i' j', {(i', j') = (i, j)} + {(i', j') <> (i, j)}) by (intros; decide equality; apply Z.eq_dec).
    split; [|split; [|split; [|split]]].
    + intros a i' j' Ha. rewrite Out by (left; exact Ha). auto.
    + intros i' j' Hi' Hj'. destruct (Dec i' j') as [Eq|D]; [injection Eq as -> ->; exact A1|]. rewrite Out by (right; exact D). rewrite (proj2 (Same _ _ D)). auto.
    + intros i' j' Hi' Hj'. destruct (Dec i' j') as [Eq|D]; [injection Eq as -> ->; exact A2|]. rewrite Out by (right; exact D). rewrite (proj1 (Same _ _ D)). auto.
    + intros i' j' Hi' Hj'. destruct (Dec i' j') as [Eq|D]; [injection Eq as -> ->; exact A3|]. rewrite Out by (right; exact D). rewrite (proj1 (Same _ _ D)). auto.
    + intros i' j' Hi' Hj'. destruct (Dec i' j') as [Eq|D]; [injection Eq as -> ->; exact A4|]. rewrite Out by (right; exact D). rewrite (proj1 (Same _ _ D)). auto.
  - exists m'. split; [exact H|]. split; [exact I0|]. split; [exact I1|].
    assert (Ev : forall i j, val (old_visits nx ny) i j = old_node F s x y t f i j).
    { intros i j. unfold val, seen, old_node, node_val. cbv zeta. rewrite visits_node. reflexivity. }
    repeat split; intros i j Hi Hj; rewrite <- Ev; auto.
Qed.

Lemma old_step_ok F (s : settings T) x y t f m :
  let nx := s_nx s in let ny := s_ny s in
  2 <= nx < 4294967296 -> 2 <= ny < 4294967296 ->
  nodes_at nx ny x y m -> contains nx ny f m -> present Tracker ny nx m ->
  exists m', old_step F s t m = Ok m' /\ nodes_at nx ny x y m' /\ contains nx ny (old_next F s x y t f) m' /\ present Tracker ny nx m'.
Proof.
  intros nx ny N1 N2 [Hx Hy] (C1 & C2 & C3 & C4 & C5 & C6 & C7 & C8) Ht. unfold old_step. fold nx ny.
  destruct (loop_nodes old_clear [] [Tracker] ny 0 nx m (fun _ => Some (U 0))) as (m1 & R1 & V1).
  { intros []; cbn; congruence. }
  { intros [i j]. unfold old_clear. apply touches_wr; [cbn; rewrite !Z.eqb_refl; reflexivity|constructor]. }
  { intros i j Hi Hj. destruct (some_of _ (Ht i j Hi Hj)) as [v V]. unfold old_clear. rewrite (run_wr _ _ _ v) by exact V. cbn [run].
    eexists; split; [reflexivity|]. intros []; cbn [existsb arr_eqb orb]; try discriminate; intros _; look; reflexivity. }
  rewrite R1. cbn [bind].
  assert (K1 : forall a i j, arr_eqb a Tracker = false -> m1 (a, i, j) = m (a, i, j)).
  { intros a i j Ha. rewrite V1. cbn [existsb]. rewrite Ha. reflexivity. }
  assert (T1 : holdsu Tracker ny nx (fun _ _ => 0) m1).
  { intros i j Hi Hj. rewrite V1. replace ((0 <=? i) && (i <? ny) && (0 <=? j) && (j <? nx))%bool with true by lia. reflexivity. }
  destruct (visits_loop F s x y t f m1) as (m2 & R2 & K2 & T2 & P2 & X2 & Y2).
  { split; intros; rewrite K1 by reflexivity; auto. }
  { repeat split; intros i j Hi Hj; rewrite K1 by reflexivity; auto. }
  { exact T1. }
  fold nx ny in R2, T2, P2, X2, Y2. rewrite R2. cbn [bind].
  destruct (mixed_loop nx ny (s_dx s) (s_dy s) (fun i j => snd (fst (old_node F s x y t f i j))) (fun i j => snd (old_node F s x y t f i j)) 0 nx (mixed_vars m2))
    as (m5 & R5 & V5); try lia.
  { intros i j Hi Hj. rewrite mixed_vars_other by reflexivity. apply X2; assumption. }
  { intros i j Hi Hj. rewrite mixed_vars_other by reflexivity. apply Y2; assumption. }
  { intros i j Hi Hj. rewrite mixed_vars_other, K2, K1 by reflexivity. rewrite C4 by assumption. congruence. }
  { intros a Ha. apply mixed_vars_var. exact Ha. }
  rewrite R5. cbn [bind].
  assert (Rng : forall i j, 0 <= i < ny -> 0 <= j < nx -> in_rng ny 0 nx i j = true) by (intros; unfold in_rng; lia).
  assert (N5 : forall a i j, isvar a = false -> 0 <= i < ny -> 0 <= j < nx -> m5 (a, i, j) = match a with
      | Psixy => Some (D (f_xy (old_next F s x y t f) i j)) | _ => m2 (a, i, j) end).
  { intros a i j Ha Hi Hj. rewrite V5, Rng, mixed_vars_other by assumption. destruct a; reflexivity. }
  assert (O5 : forall a i j, isvar a = false -> arr_eqb Psixy a = false -> m5 (a, i, j) = m2 (a, i, j)).
  { intros a i j Ha Hb. rewrite V5, mixed_vars_other by assumption. destruct in_rng; [|reflexivity]. destruct a; try discriminate; reflexivity. }
  eexists; split; [reflexivity|]. split; [|split].
  - split; intros; unfold feed_back; cbn; rewrite O5, K2, K1 by reflexivity; auto.
  - unfold contains, feed_back.
    repeat split; intros i j Hi Hj; cbn [assign arr_eqb]; rewrite N5 by (reflexivity || assumption); first [reflexivity | apply P2; assumption | apply X2; assumption | apply Y2; assumption].
  - intros i j Hi Hj. unfold feed_back. cbn [assign arr_eqb]. rewrite O5 by reflexivity. rewrite T2 by assumption. congruence.
Qed.

Lemma old_setup_ok {TG : Trig T} (s : settings T) :
  let nx := s_nx s in let ny := s_ny s in nx * ny < 2147483648 ->
  exists m, old_setup s = Ok m /\ nodes_at nx ny (node_x s) (node_y s) m /\ contains nx ny (initial (node_x s) (node_y s)) m /\ present Tracker ny nx m.
Proof.
  intros nx ny N. unfold old_setup. fold nx ny. replace (2147483647 <? nx * ny) with false by lia. cbv zeta.
  set (m0 := alloc AX1 nx 1 Undef _).
  destruct (set_loop AX1 (s_xlim1 s) (s_dx s) nx m0) as (m1 & R1 & V1).
  { intros i Hi. unfold m0. rewrite alloc_in by lia. congruence. }
  rewrite R1. cbn [bind].
  destruct (set_loop AY1 (s_ylim1 s) (s_dy s) ny m1) as (m2 & R2 & V2).
  { intros i Hi. rewrite V1. cbn [arr_eqb andb]. unfold m0. rewrite alloc_other by reflexivity. rewrite alloc_in by lia. congruence. }
  rewrite R2. cbn [bind].
  assert (Hx : forall j, 0 <= j < nx -> m2 (AX1, j, 0) = Some (D (node_x s j))).
  { intros j Hj. rewrite V2. cbn [arr_eqb andb]. rewrite V1. cbn [arr_eqb andb]. replace ((0 <=? j) && (j <? nx))%bool with true by lia. reflexivity. }
  assert (Hy : forall j, 0 <= j < ny -> m2 (AY1, j, 0) = Some (D (node_y s j))).
  { intros j Hj. rewrite V2. cbn [arr_eqb andb]. replace ((0 <=? j) && (j <? ny))%bool with true by lia. reflexivity. }
  assert (P2 : forall a i j, existsb (arr_eqb a) [Tracker; MPhi; MPsix; MPsiy; MPsixy; Phi; Psix; Psiy; Psixy] = true -> 0 <= i < ny -> 0 <= j < nx -> m2 (a, i, j) = Some Undef).
  { intros a i j Ha Hi Hj. rewrite V2. replace (arr_eqb AY1 a) with false by (destruct a; try discriminate; reflexivity). cbn [andb].
    rewrite V1. replace (arr_eqb AX1 a) with false by (destruct a; try discriminate; reflexivity). cbn [andb]. unfold m0.
    assert (R : ((0 <=? i) && (i <? ny) && (0 <=? j) && (j <? nx))%bool = true) by lia.
    destruct a; try discriminate; cbn [alloc arr_eqb fold_right]; rewrite R; reflexivity. }
  clear V1 V2 R1 R2. clearbody m0.
  destruct (loop_nodes old_init [AX1; AY1] [MPhi; MPsix; MPsiy; MPsixy; Phi; Psix; Psiy; Psixy] ny 0 nx m2
    (fun l : loc => match l with (a, i, j) => let f := initial (node_x s) (node_y s) in
      Some (D (match a with MPhi | Phi => f_phi f i j | MPsix | Psix => f_x f i j | MPsiy | Psiy => f_y f i j | _ => f_xy f i j end)) end)) as (m4 & R4 & V4).
  { intros []; cbn; congruence. }
  { intros [i j]. unfold old_init. repeat (apply touches_rd; [reflexivity|intros]).
    repeat (apply touches_wr; [cbn; rewrite !Z.eqb_refl; reflexivity|]). constructor. }
  { intros i j Hi Hj. unfold old_init.
    rewrite (run_rd _ _ (node_x s j)) by (apply Hx; lia). rewrite (run_rd _ _ (node_y s i)) by (apply Hy; lia).
    do 8 (erewrite run_wr by (look; apply P2; [reflexivity|lia|lia])). cbn [run]. eexists; split; [reflexivity|].
    intros []; cbn [existsb arr_eqb orb]; try discriminate; intros _; look; reflexivity. }
  exists m4. split; [exact R4|].
  assert (Rng : forall i j, 0 <= i < ny -> 0 <= j < nx -> ((0 <=? i) && (i <? ny) && (0 <=? j) && (j <? nx))%bool = true) by (intros; lia).
  split; [|split].
  - split; intros; rewrite V4; cbn [existsb arr_eqb orb andb]; auto.
  - repeat split; intros i j Hi Hj; rewrite V4, Rng by assumption; reflexivity.
  - intros i j Hi Hj. rewrite V4. cbn [existsb arr_eqb orb andb]. rewrite P2 by (reflexivity || assumption). congruence.
Qed.

Lemma old_steps_ok F (s : settings T) x y k : let nx := s_nx s in let ny := s_ny s in
  2 <= nx < 4294967296 -> 2 <= ny < 4294967296 -> forall t0 f m,
  nodes_at nx ny x y m -> contains nx ny (old_after F s x y t0 f) m -> present Tracker ny nx m ->
  exists m', old_steps F s (Z.of_nat t0) k m = Ok m' /\ nodes_at nx ny x y m' /\ contains nx ny (old_after F s x y (k + t0) f) m'.
Proof.
  intros nx ny N1 N2. induction k as [|k IH]; intros t0 f m Hn Hc Ht; cbn [old_steps].
  - exists m. auto.
  - destruct (old_step_ok F s x y (Z.of_nat t0) _ m N1 N2 Hn Hc Ht) as (m1 & R & A & B & C). rewrite R. cbn [bind].
    destruct (IH (S t0) f m1 A B C) as (m2 & R2 & A2 & B2). exists m2.
    replace (Z.of_nat t0 + 1) with (Z.of_nat (S t0)) by lia. replace (S k + t0)%nat with (k + S t0)%nat by lia. auto.
Qed.

Lemma old_main_ok {TG : Trig T} F (s : settings T) n : let nx := s_nx s in let ny := s_ny s in
  2 <= nx -> 2 <= ny -> nx * ny < 2147483648 -> old_count_steps s = Ok n ->
  exists m, old_main F s = Ok m /\ contains nx ny (old_after F s (node_x s) (node_y s) (Z.to_nat n) (initial (node_x s) (node_y s))) m.
Proof.
  intros nx ny N1 N2 N3 En. unfold old_main. rewrite En. cbn [bind].
  destruct (old_setup_ok s N3) as (m & R & A & B & C). rewrite R. cbn [bind].
  assert (nx < 4294967296) by (clear - N1 N2 N3; nia). assert (ny < 4294967296) by (clear - N1 N2 N3; nia).
  destruct (old_steps_ok F s (node_x s) (node_y s) (Z.to_nat n) ltac:(fold nx; lia) ltac:(fold ny; lia) 0%nat (initial (node_x s) (node_y s)) m A B C) as (m2 & R2 & A2 & B2).
  exists m2. rewrite Nat.add_0_r in B2. auto.
Qed.
End Step.
