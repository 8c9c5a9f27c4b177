From Coq Require Import ZArith Lia List String Ascii.
From Verif Require Import Base Num ModelVec ModelGrid ModelArray ModelOutput ModelVisualize SpecGrid SpecOutput SpecVisualize ProofsBase ProofsOutput.
Open Scope Z_scope.
Lemma pieces_split sep s : pieces sep s = split_at sep s.
Proof. induction s as [|c s IH]; cbn; [reflexivity|]. rewrite IH. reflexivity. Qed.
Section P.
Context {T : Type} {NT : Num T} {Out : Type} (fmt : T -> string) (parse : string -> option Out) (rnd : T -> Out).
Lemma scan_ok k : forall ls f, (forall m w, nth_error ls m = Some w -> all_numbers parse (pieces TAB w) = Some (f m) /\ List.length (f m) = k) ->
  scan_lines parse k (ls ++ [EmptyString])%list = Some (map f (seq 0 (List.length ls))).
Proof.
  induction ls as [|w ls IH]; intros f H; [reflexivity|].
  destruct (H 0%nat w eq_refl) as (E & L).
  assert (IH' : scan_lines parse k (ls ++ [EmptyString])%list = Some (map (fun m => f (S m)) (seq 0 (List.length ls)))).
  { apply IH. intros m w' Hm. apply (H (S m) w'). exact Hm. }
  cbn [app List.length seq map]. rewrite <- seq_shift, map_map.
  destruct (ls ++ [EmptyString])%list as [|u us] eqn:El; [destruct ls; discriminate|].
  assert (U : scan_lines parse k (w :: u :: us) = match all_numbers parse (pieces (ascii_of_nat 9) w), scan_lines parse k (u :: us) with
      | Some vs, Some r => if Nat.eqb (List.length vs) k then Some (vs :: r) else None | _, _ => None end).
  { destruct w; reflexivity. }
  rewrite U, IH'. change (ascii_of_nat 9) with TAB. rewrite E, L, Nat.eqb_refl. reflexivity.
Qed.
Lemma all_numbers_fmt l : readable fmt parse rnd -> all_numbers parse (map fmt l) = Some (map rnd l).
Proof. intros H. induction l as [|x l IH]; cbn; [reflexivity|]. rewrite H, IH. reflexivity. Qed.

(** the rows that are read from a printed array *)
Lemma textscan_print {A} (cmpt : A -> list T) k ov dim n pad bmin bmax (g : grid T) (show : A -> string) (a : array A) :
  built ov dim n pad bmin bmax g -> array_on g a -> readable fmt parse rnd ->
  (forall x, occurs NL (fmt x) = false) -> (forall x, occurs TAB (fmt x) = false) -> (forall x, occurs NL (show x) = false) ->
  (forall x, columns (show x) = map fmt (cmpt x) /\ List.length (cmpt x) = k) ->
  exists text ts, print_array fmt ov g show a = Ok text /\ textscan parse (3 + k) text = Some ts /\
    Z.of_nat (List.length ts) = vx n * vy n * vz n /\
    forall i j l, interior_cell n (i, j, l) -> exists p x, node ov g i j l = Ok p /\ aget ov g a i j l = Ok x /\
      nth_error ts (Z.to_nat ((i * vy n + j) * vz n + l)) = Some (map rnd (vx p :: vy p :: vz p :: cmpt x)).
Proof.
  intros Hb Ha Hr H1 H2 H3 Hc. destruct (print_ok fmt ov dim n pad bmin bmax g show a Hb Ha H1 H2 H3) as (text & ls & E & L & Len & N).
  assert (Hn : forall b, 1 <= vget n b). { destruct Hb as ((_ & _ & Hn & _) & _). intros b. specialize (Hn b). destruct (used dim b); lia. }
  pose proof (Hn AX) as X; pose proof (Hn AY) as Y; pose proof (Hn AZ) as W. cbn [vget] in *. clear Hn.
  set (f := fun m => match nth_error ls m with Some w => match all_numbers parse (pieces TAB w) with Some r => r | None => [] end | None => [] end).
  assert (Hf : forall i j l, interior_cell n (i, j, l) -> exists p x w, node ov g i j l = Ok p /\ aget ov g a i j l = Ok x /\
     nth_error ls (Z.to_nat ((i * vy n + j) * vz n + l)) = Some w /\
     all_numbers parse (pieces TAB w) = Some (map rnd (vx p :: vy p :: vz p :: cmpt x)) /\ List.length (cmpt x) = k).
  { intros i j l Hi. destruct (N i j l Hi) as (p & x & w & Hp & Hx & Hw & Hcol). exists p, x, w. repeat (split; [assumption|]).
    destruct (Hc x) as (C1 & C2). split; [|exact C2]. rewrite pieces_split. unfold columns in *. rewrite Hcol, C1.
    change (fmt (vx p) :: fmt (vy p) :: fmt (vz p) :: map fmt (cmpt x))%list with (map fmt (vx p :: vy p :: vz p :: cmpt x)).
    apply all_numbers_fmt. exact Hr. }
  exists text, (map f (seq 0 (List.length ls))). split; [exact E|]. split; [|split].
  - unfold textscan. rewrite pieces_split. unfold lines_of in L. change (ascii_of_nat 10) with NL. rewrite L. apply scan_ok.
    intros m w Hm. assert (Hlt : (m < List.length ls)%nat) by (apply nth_error_Some; rewrite Hm; discriminate).
    set (M := Z.of_nat m). assert (HM : 0 <= M < vx n * vy n * vz n) by lia.
    destruct (Hf (M / vz n / vy n) ((M / vz n) mod vy n) (M mod vz n)) as (p & x & w' & _ & _ & Hw & Hall & Hk).
    { pose proof (Z.mod_pos_bound (M / vz n) (vy n)). pose proof (Z.mod_pos_bound M (vz n)).
      assert (0 <= M / vz n / vy n) by (apply Z.div_pos; [apply Z.div_pos; lia|lia]).
      assert (M / vz n < vx n * vy n) by (apply Z.div_lt_upper_bound; [lia|]; rewrite Z.mul_comm; lia).
      assert (M / vz n / vy n < vx n) by (apply Z.div_lt_upper_bound; [lia|]; rewrite Z.mul_comm; lia).
      intros []; cbn [ccoord vget]; lia. }
    assert (Em : Z.to_nat ((M / vz n / vy n * vy n + (M / vz n) mod vy n) * vz n + M mod vz n) = m).
    { rewrite (Z.mul_comm (M / vz n / vy n)), <- Z.div_mod by lia. rewrite (Z.mul_comm (M / vz n)), <- Z.div_mod by lia. unfold M. apply Nat2Z.id. }
    rewrite Em, Hm in Hw. injection Hw as <-. unfold f. rewrite Hm, Hall. split; [reflexivity|]. rewrite map_length. cbn [List.length]. lia.
  - rewrite map_length, seq_length. exact Len.
  - intros i j l Hi. destruct (Hf i j l Hi) as (p & x & w & Hp & Hx & Hw & Hall & _). exists p, x. repeat (split; [assumption|]).
    assert (Hlt : (Z.to_nat ((i * vy n + j) * vz n + l) < List.length ls)%nat) by (apply nth_error_Some; rewrite Hw; discriminate).
    rewrite nth_error_map. erewrite nth_error_nth' with (d := 0%nat) by (rewrite seq_length; exact Hlt). cbn [option_map].
    rewrite seq_nth by exact Hlt. cbn [Nat.add]. f_equal. unfold f. rewrite Hw, Hall. reflexivity.
Qed.
Lemma column_length m (ts : list (list Out)) : List.length (column m ts) = List.length ts.
Proof. apply map_length. Qed.
Lemma column_nth m (ts : list (list Out)) q r : nth_error ts q = Some r -> nth_error (column m ts) q = Some (nth_error r (m - 1)).
Proof. intros H. unfold column. rewrite nth_error_map, H. reflexivity. Qed.

Definition no_breaks : Prop := (forall x, occurs NL (fmt x) = false) /\ (forall x, occurs TAB (fmt x) = false).

Lemma flat_cell (nx ny i j : Z) : 0 <= i < nx -> 0 <= j < ny -> interior_cell (V3 nx ny 1) (i, j, 0).
Proof. intros A B []; cbn; lia. Qed.
Lemma surface_ok ov nx ny pad bmin bmax (g : grid T) (a : array T) :
  built ov 2 (V3 nx ny 1) pad bmin bmax g -> array_on g a -> readable fmt parse rnd -> no_breaks ->
  exists text x y h, print_array fmt ov g fmt a = Ok text /\ ShowScalar parse text 2 nx ny = Some (Surface x y h) /\
    (m_rows x = nx /\ m_cols x = ny /\ m_rows y = nx /\ m_cols y = ny /\ m_rows h = nx /\ m_cols h = ny) /\
    forall i j r c, within nx ny (i, j) -> within nx ny (r, c) -> i * ny + j = c * nx + r -> vertex_of rnd ov g a x y h (r, c) (i, j).
Proof.
  intros Hb Ha Hr (H1 & H2).
  destruct (textscan_print (fun x => [x]) 1 ov 2 (V3 nx ny 1) pad bmin bmax g fmt a Hb Ha Hr H1 H2 H1) as (text & ts & E & Et & Len & N).
  { intros x. split; [|reflexivity]. unfold columns. apply split_free. apply H2. }
  cbn [Nat.add vx vy vz] in *.
  assert (HL : forall m, Z.of_nat (List.length (column m ts)) =? nx * ny = true). { intros m. rewrite column_length. apply Z.eqb_eq. lia. }
  assert (HR : forall m, exists M, reshape (column m ts) nx ny = Some M /\ m_rows M = nx /\ m_cols M = ny /\
     forall r c, within nx ny (r, c) -> entry M r c = nth_error (column m ts) (Z.to_nat (c * nx + r))).
  { intros m. unfold reshape. rewrite HL. eexists. split; [reflexivity|]. cbn. split; [reflexivity|]. split; [reflexivity|].
    intros r c (Q1 & Q2). cbn in Q1, Q2. replace ((0 <=? r) && (r <? nx) && (0 <=? c) && (c <? ny))%bool with true; [reflexivity|].
    symmetry. rewrite !Bool.andb_true_iff, !Z.leb_le, !Z.ltb_lt. lia. }
  destruct (HR 1%nat) as (x & Ex & X1 & X2 & X3). destruct (HR 2%nat) as (y & Ey & Y1 & Y2 & Y3). destruct (HR 4%nat) as (h & Eh & Z1 & Z2 & Z3).
  exists text, x, y, h. split; [exact E|]. split; [unfold ShowScalar; rewrite Et, Ex, Ey, Eh; reflexivity|]. split; [tauto|].
  intros i j r c (I1 & I2) RC Eq. cbn [fst snd] in *. destruct (N i j 0) as (p & v & Hp & Hv & Hq). { apply flat_cell; assumption. }
  exists p, v. cbn [fst snd]. split; [exact Hp|]. split; [exact Hv|].
  replace ((i * ny + j) * 1 + 0) with (c * nx + r) in Hq by lia.
  rewrite X3, Y3, Z3 by exact RC. rewrite !(column_nth _ _ _ _ Hq). cbn. repeat split; reflexivity.
Qed.
Lemma surface_points ov nx ny pad bmin bmax (g : grid T) (a : array T) :
  built ov 2 (V3 nx ny 1) pad bmin bmax g -> array_on g a -> readable fmt parse rnd -> no_breaks ->
  exists text x y h, print_array fmt ov g fmt a = Ok text /\ ShowScalar parse text 2 nx ny = Some (Surface x y h) /\
    (m_rows x = nx /\ m_cols x = ny /\ m_rows y = nx /\ m_cols y = ny /\ m_rows h = nx /\ m_cols h = ny) /\
    (forall ij, within nx ny ij -> exists rc, within nx ny rc /\ vertex_of rnd ov g a x y h rc ij) /\
    (forall rc, within nx ny rc -> exists ij, within nx ny ij /\ vertex_of rnd ov g a x y h rc ij).
Proof.
  intros Hb Ha Hr H. destruct (surface_ok ov nx ny pad bmin bmax g a Hb Ha Hr H) as (text & x & y & h & E & S & M & V).
  exists text, x, y, h. repeat (split; [assumption|]).
  assert (G : forall a b u v, 0 <= u < a -> 0 <= v < b -> within a b ((u * b + v) mod a, (u * b + v) / a)).
  { intros a' b u v U W. split; cbn [fst snd]; [apply Z.mod_pos_bound; lia|]. assert (0 <= u * b) by (apply Z.mul_nonneg_nonneg; lia).
    split; [apply Z.div_pos; lia|]. apply Z.div_lt_upper_bound; [lia|].
    assert (u * b <= (a' - 1) * b) by (apply Z.mul_le_mono_nonneg_r; lia). lia. }
  split.
  - intros (i & j) (I & J). cbn [fst snd] in *. exists ((i * ny + j) mod nx, (i * ny + j) / nx). split; [apply G; assumption|].
    apply V; [split; assumption|apply G; assumption|]. rewrite (Z.mul_comm (_ / _)). apply Z.div_mod. lia.
  - intros (r & c) (I & J). cbn [fst snd] in *. pose proof (G ny nx c r J I) as (A & B). cbn [fst snd] in A, B.
    exists ((c * nx + r) / ny, (c * nx + r) mod ny). split; [split; assumption|].
    apply V; [split; assumption|split; assumption|]. rewrite (Z.mul_comm (_ / _)). symmetry. apply Z.div_mod. lia.
Qed.
Lemma surface_square ov m pad bmin bmax (g : grid T) (a : array T) :
  built ov 2 (V3 m m 1) pad bmin bmax g -> array_on g a -> readable fmt parse rnd -> no_breaks ->
  exists text x y h, print_array fmt ov g fmt a = Ok text /\ ShowScalar parse text 2 m m = Some (Surface x y h) /\
    (m_rows x = m /\ m_cols x = m /\ m_rows y = m /\ m_cols y = m /\ m_rows h = m /\ m_cols h = m) /\
    forall i j, within m m (i, j) -> vertex_of rnd ov g a x y h (j, i) (i, j).
Proof.
  intros Hb Ha Hr H. destruct (surface_ok ov m m pad bmin bmax g a Hb Ha Hr H) as (text & x & y & h & E & S & M & V).
  exists text, x, y, h. repeat (split; [assumption|]). intros i j (I & J). apply V; [split; assumption|split; assumption|reflexivity].
Qed.
Lemma surface_torn ov nx ny pad bmin bmax (g : grid T) (a : array T) :
  built ov 2 (V3 nx ny 1) pad bmin bmax g -> array_on g a -> readable fmt parse rnd -> no_breaks ->
  2 <= nx -> 2 <= ny -> nx <> ny ->
  exists text x y h, print_array fmt ov g fmt a = Ok text /\ ShowScalar parse text 2 nx ny = Some (Surface x y h) /\
    exists rc rc' ij ij', within nx ny rc /\ within nx ny rc' /\ within nx ny ij /\ within nx ny ij' /\
      vertex_of rnd ov g a x y h rc ij /\ vertex_of rnd ov g a x y h rc' ij' /\ joined rc rc' /\ ~ joined ij ij'.
Proof.
  intros Hb Ha Hr H X Y D. destruct (surface_ok ov nx ny pad bmin bmax g a Hb Ha Hr H) as (text & x & y & h & E & S & M & V).
  exists text, x, y, h. split; [exact E|]. split; [exact S|]. clear M.
  destruct (Z.eq_dec (ny mod nx) 0) as [E0|E0].
  - assert (Hk : nx * 2 <= ny). { pose proof (Z.div_mod ny nx ltac:(lia)). assert (1 < ny / nx) by (destruct (Z_lt_le_dec 1 (ny / nx)); [assumption|]; exfalso; assert (ny / nx = 1 \/ ny / nx <= 0) as [Q|Q] by lia; [rewrite Q in H0; lia|]; assert (nx * (ny / nx) <= 0) by (apply Z.mul_nonneg_nonpos; lia); lia).
      rewrite H0, E0, Z.add_0_r. apply Z.mul_le_mono_nonneg_l; lia. }
    exists (0, 0), (0, 1), (0, 0), (0, nx). unfold within; cbn [fst snd].
    assert (nx < ny) by lia. repeat match goal with |- _ /\ _ => split; [lia|] end.
    split; [apply V; unfold within; cbn [fst snd]; lia|]. split; [apply V; unfold within; cbn [fst snd]; lia|]. split; [left; cbn; lia|]. unfold joined; cbn [fst snd]. lia.
  - pose proof (Z.div_mod ny nx ltac:(lia)) as Q. pose proof (Z.mod_pos_bound ny nx ltac:(lia)) as B.
    assert (0 <= ny / nx) by (apply Z.div_pos; lia).
    assert (ny / nx < ny) by (apply Z.div_lt_upper_bound; [lia|]; assert (2 * ny <= nx * ny) by (apply Z.mul_le_mono_nonneg_r; lia); lia).
    exists (ny mod nx - 1, ny / nx), (ny mod nx, ny / nx), (0, ny - 1), (1, 0). unfold within; cbn [fst snd].
    repeat match goal with |- _ /\ _ => split; [lia|] end.
    split; [apply V; unfold within; cbn [fst snd]; try lia|]. split; [apply V; unfold within; cbn [fst snd]; try lia|].
    split; [right; cbn; lia|]. unfold joined; cbn [fst snd]. lia.
Qed.
Lemma surface_layers ov n pad bmin bmax (g : grid T) (a : array T) dim nz' :
  built ov 3 n pad bmin bmax g -> array_on g a -> readable fmt parse rnd -> no_breaks -> 2 <= vz n ->
  exists text, print_array fmt ov g fmt a = Ok text /\ ShowScalar parse text dim (vx n) (vy n) = None /\
    Visualize parse (Some text) None dim (vx n) (vy n) nz' = None.
Proof.
  intros Hb Ha Hr (H1 & H2) W.
  destruct (textscan_print (fun x => [x]) 1 ov 3 n pad bmin bmax g fmt a Hb Ha Hr H1 H2 H1) as (text & ts & E & Et & Len & N).
  { intros x. split; [|reflexivity]. unfold columns. apply split_free. apply H2. }
  assert (Hn : forall b, 1 <= vget n b). { destruct Hb as ((_ & _ & Hn & _) & _). intros b. specialize (Hn b). destruct b; exact Hn. }
  pose proof (Hn AX) as X; pose proof (Hn AY) as Y. cbn [vget] in *.
  assert (R : reshape (column 1 ts) (vx n) (vy n) = None).
  { unfold reshape. rewrite column_length, Len. replace (vx n * vy n * vz n =? vx n * vy n) with false; [reflexivity|].
    symmetry. apply Z.eqb_neq. assert (1 <= vx n * vy n) by (apply (Z.mul_le_mono_nonneg 1 (vx n) 1 (vy n)); lia).
    assert (vx n * vy n * 2 <= vx n * vy n * vz n) by (apply Z.mul_le_mono_nonneg_l; lia). lia. }
  assert (Sh : ShowScalar parse text dim (vx n) (vy n) = None). { unfold ShowScalar. cbn [Nat.add] in Et. rewrite Et, R. reflexivity. }
  exists text. split; [exact E|]. split; [exact Sh|]. unfold Visualize. rewrite Sh. reflexivity.
Qed.
Lemma nth_combine {A B} (l : list A) : forall (l' : list B) q x y, nth_error l q = Some x -> nth_error l' q = Some y -> nth_error (combine l l') q = Some (x, y).
Proof. induction l as [|a l IH]; intros [|b l'] [|q] x y; cbn; try congruence. apply IH. Qed.
Lemma arrows_ok ov nx ny pad bmin bmax (g : grid T) (a : array (vec3 T)) nx' ny' nz' :
  built ov 2 (V3 nx ny 1) pad bmin bmax g -> array_on g a -> readable fmt parse rnd -> no_breaks ->
  exists text l, print_array fmt ov g (show_vec3 fmt) a = Ok text /\ Visualize parse None (Some text) 2 nx' ny' nz' = Some [Arrows l] /\
    Z.of_nat (List.length l) = nx * ny /\
    forall i j, within nx ny (i, j) -> exists p v, node ov g i j 0 = Ok p /\ aget ov g a i j 0 = Ok v /\
      nth_error l (Z.to_nat (i * ny + j)) = Some (Some (rnd (vx p)), Some (rnd (vy p)), Some (rnd (vx v)), Some (rnd (vy v))).
Proof.
  intros Hb Ha Hr (H1 & H2).
  destruct (textscan_print (fun v => [vx v; vy v; vz v]) 3 ov 2 (V3 nx ny 1) pad bmin bmax g (show_vec3 fmt) a Hb Ha Hr H1 H2) as (text & ts & E & Et & Len & N).
  { intros v. unfold show_vec3. change tab with (String TAB EmptyString). rewrite !occurs_app, !H1. reflexivity. }
  { intros v. split; [|reflexivity]. rewrite columns_vec3 by exact H2. reflexivity. }
  cbn [Nat.add vx vy vz] in *. eexists text, _. split; [exact E|].
  split; [unfold Visualize, ShowVector; rewrite Et; reflexivity|]. split.
  - rewrite !combine_length, !column_length, !Nat.min_id. lia.
  - intros i j (I & J). cbn [fst snd] in *. destruct (N i j 0) as (p & v & Hp & Hv & Hq). { apply flat_cell; assumption. }
    exists p, v. split; [exact Hp|]. split; [exact Hv|]. replace ((i * ny + j) * 1 + 0) with (i * ny + j) in Hq by lia.
    pose proof (column_nth 1 _ _ _ Hq) as Q1. pose proof (column_nth 2 _ _ _ Hq) as Q2. pose proof (column_nth 4 _ _ _ Hq) as Q4. pose proof (column_nth 5 _ _ _ Hq) as Q5.
    cbn [nth_error map Nat.sub] in Q1, Q2, Q4, Q5. apply nth_combine; [apply nth_combine; [apply nth_combine|]|]; assumption.
Qed.
Lemma line_nothing ov nx pad bmin bmax (g : grid T) (a : array T) (b : array (vec3 T)) nz' :
  built ov 1 (V3 nx 1 1) pad bmin bmax g -> array_on g a -> array_on g b -> readable fmt parse rnd -> no_breaks ->
  exists text text', print_array fmt ov g fmt a = Ok text /\ print_array fmt ov g (show_vec3 fmt) b = Ok text' /\
    Visualize parse (Some text) (Some text') 1 nx 1 nz' = Some [Nothing; Nothing].
Proof.
  intros Hb Ha Hb' Hr (H1 & H2).
  destruct (textscan_print (fun x => [x]) 1 ov 1 (V3 nx 1 1) pad bmin bmax g fmt a Hb Ha Hr H1 H2 H1) as (text & ts & E & Et & Len & _).
  { intros x. split; [|reflexivity]. unfold columns. apply split_free. apply H2. }
  destruct (textscan_print (fun v => [vx v; vy v; vz v]) 3 ov 1 (V3 nx 1 1) pad bmin bmax g (show_vec3 fmt) b Hb Hb' Hr H1 H2) as (text' & ts' & E' & Et' & _).
  { intros v. unfold show_vec3. change tab with (String TAB EmptyString). rewrite !occurs_app, !H1. reflexivity. }
  { intros v. split; [|reflexivity]. rewrite columns_vec3 by exact H2. reflexivity. }
  cbn [Nat.add vx vy vz] in *. exists text, text'. split; [exact E|]. split; [exact E'|].
  assert (HR : forall m, exists M, reshape (column m ts) nx 1 = Some M).
  { intros m. unfold reshape. rewrite column_length. replace (_ =? _) with true by (symmetry; apply Z.eqb_eq; lia). eexists. reflexivity. }
  destruct (HR 1%nat) as (x & Ex). destruct (HR 2%nat) as (y & Ey). destruct (HR 4%nat) as (h & Eh).
  unfold Visualize, ShowScalar, ShowVector. rewrite Et, Et', Ex, Ey, Eh. reflexivity.
Qed.
End P.
From Coq Require Import QArith.
From Verif Require Import ProofsIOCases.
Definition qparse (w : string) : option Q := if String.eqb w "n" then Some (Qmake (-1) 1) else if String.eqb w "p" then Some (Qmake 1 1) else None.
Definition qsign (x : Q) : Q := if Qle_bool x (Qmake 0 1) then Qmake (-1) 1 else Qmake 1 1.
Lemma plot_case : exists g (a : array Q), built Trap 2 (V3 2 3 1) 1 qlo qhi g /\ array_on g a /\ readable qfmt qparse qsign /\
  (forall x, occurs NL (qfmt x) = false) /\ (forall x, occurs TAB (qfmt x) = false).
Proof.
  destruct (make_grid Trap 2 (V3 2 3 1) 1 qlo qhi) as [g| | |] eqn:E; try (vm_compute in E; discriminate).
  exists g, (array_ctor g (Qmake 0 1)). split.
  - split; [|split; [right; cbn; unfold INT_MAX; discriminate|exact E]].
    split; [auto with arith|]. split; [discriminate|]. split; [intros []; cbn; discriminate || reflexivity|]. cbn. unfold INT_MAX. discriminate.
  - vm_compute in E. injection E as <-. split; [split; reflexivity|].
    split; [|split]; intros x; unfold qfmt, qparse, qsign; destruct (Qle_bool x (Qmake 0 1)); reflexivity.
Qed.
Lemma line_case : exists g (a : array Q) (b : array (vec3 Q)), built Trap 1 (V3 3 1 1) 1 qlo qhi g /\ array_on g a /\ array_on g b /\ readable qfmt qparse qsign /\
  (forall x, occurs NL (qfmt x) = false) /\ (forall x, occurs TAB (qfmt x) = false).
Proof.
  destruct (make_grid Trap 1 (V3 3 1 1) 1 qlo qhi) as [g| | |] eqn:E; try (vm_compute in E; discriminate).
  exists g, (array_ctor g (Qmake 0 1)), (array_ctor g (V3 (Qmake 0 1) (Qmake 1 1) (Qmake 2 1))). split.
  - split; [|split; [right; cbn; unfold INT_MAX; discriminate|exact E]].
    split; [auto with arith|]. split; [discriminate|]. split; [intros []; cbn; discriminate || reflexivity|]. cbn. unfold INT_MAX. discriminate.
  - vm_compute in E. injection E as <-. split; [split; reflexivity|]. split; [split; reflexivity|].
    split; [|split]; intros x; unfold qfmt, qparse, qsign; destruct (Qle_bool x (Qmake 0 1)); reflexivity.
Qed.
