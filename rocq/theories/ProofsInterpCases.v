From Coq Require Import ZArith List Lia Reals Lra Bool QArith.
From Verif Require Import Base Num ModelVec ModelGrid ModelArray ModelInterp SpecGrid SpecInterp
  ProofsBase ProofsGrid ProofsArray ProofsGridProps ProofsHermite ProofsHermiteCell ProofsHermiteExact
  ProofsInterp ProofsInterpProps ProofsInterpMore ProofsLoops ProofsInterpApi.
Open Scope R_scope.

Lemma interp_exact_3d ov n pad bmin bmax (g : grid R) (l : levelset R) c x :
  built ov 3 n pad bmin bmax g -> (1 <= pad)%Z -> levelset_on g l -> proper_box 3 bmin bmax ->
  sampled_nodes ov 3 n pad g l c -> in_lattice 3 n bmin bmax x ->
  exists f, interpolate ov g x l false = Ok f /\ f_phi f = poly c x /\
    forall a, vget (f_psi f) a = dpoly a c x.
Proof.
  intros Hb Hp Hl Hbox HS Hx.
  destruct (interp_exact_pad ov 3 n pad bmin bmax g l Hb Hp Hl Hbox (or_intror eq_refl) c x HS Hx) as (f & E & A & B).
  assert (Ef : flat 3 x = x) by (destruct x; reflexivity). rewrite Ef in *.
  exists f. split; [exact E|]. split; [exact A|]. intros a. rewrite B. destruct a; reflexivity.
Qed.

Lemma interp_field_gradient ov dim n bmin bmax (g : grid R) (l : levelset R) :
  built ov dim n 1 bmin bmax g -> levelset_on g l -> proper_box dim bmin bmax -> interp_defined ov dim ->
  exists F, (forall y, in_lattice dim n bmin bmax y -> interpolate ov g y l false = Ok (F y)) /\
   (forall x a, in_lattice dim n bmin bmax x -> used dim a = true ->
      vget bmin a - spacing (vget bmin a) (vget bmax a) (vget n a) / 2 < vget x a ->
      derivable_pt_lim (fun t => f_phi (F (vset x a t))) (vget x a) (vget (f_psi (F x)) a)) /\
   (forall x a, in_lattice dim n bmin bmax x -> used dim a = false -> vget (f_psi (F x)) a = 0).
Proof. intros A B C D. destruct (interp_field ov dim n bmin bmax g l A B C D) as (F & H1 & H2 & H3 & _). exists F. auto. Qed.

Lemma interp_field_continuous ov dim n bmin bmax (g : grid R) (l : levelset R) :
  built ov dim n 1 bmin bmax g -> levelset_on g l -> proper_box dim bmin bmax -> interp_defined ov dim ->
  exists F, (forall y, in_lattice dim n bmin bmax y -> interpolate ov g y l false = Ok (F y)) /\
   (forall x eps, in_lattice dim n bmin bmax x -> 0 < eps ->
      exists d, 0 < d /\ forall y, in_lattice dim n bmin bmax y ->
        (forall a, used dim a = true -> Rabs (vget y a - vget x a) < d) ->
        Rabs (f_phi (F y) - f_phi (F x)) < eps /\
        forall a, Rabs (vget (f_psi (F y)) a - vget (f_psi (F x)) a) < eps).
Proof. intros A B C D. destruct (interp_field ov dim n bmin bmax g l A B C D) as (F & H1 & _ & _ & H4). exists F. auto. Qed.

Lemma limiter_all (p0 s0 p1 s1 h : R) :
  (let cp := get_control_points p0 s0 p1 s1 h false in
   c_30 cp = p0 /\ c_21 cp = p0 + s0 * h / 3 /\ c_12 cp = p1 - s1 * h / 3 /\ c_03 cp = p1) /\
  (let cp := get_control_points p0 s0 p1 s1 h true in
   c_30 cp = p0 /\ c_03 cp = p1 /\ (c_21 cp, c_12 cp) = limited p0 s0 p1 s1 h) /\
  (0 < (s0 * h - (p1 - p0)) * (s1 * h - (p1 - p0)) ->
   get_control_points p0 s0 p1 s1 h true = get_control_points p0 s0 p1 s1 h false).
Proof.
  assert (A : let cp := get_control_points p0 s0 p1 s1 h false in
   c_30 cp = p0 /\ c_21 cp = p0 + s0 * h / 3 /\ c_12 cp = p1 - s1 * h / 3 /\ c_03 cp = p1).
  { cbv zeta. unfold get_control_points, one_third. cbn [c_30 c_21 c_12 c_03 nadd nsub nmul ndiv nofZ NumR]. repeat split; field. }
  pose proof (limiter_cp p0 s0 p1 s1 h) as B. split; [exact A|]. split; [exact B|]. intros H.
  cbv zeta in *. unfold limited in B. destruct (Rlt_dec _ _) as [r|r]; [|contradiction].
  destruct A as (A1 & A2 & A3 & A4), B as (B1 & B4 & B2). pose proof (f_equal snd B2) as B3. apply (f_equal fst) in B2. cbn [fst snd] in B2, B3.
  revert A1 A2 A3 A4 B1 B2 B3 B4. generalize (get_control_points p0 s0 p1 s1 h true) (get_control_points p0 s0 p1 s1 h false).
  intros [] []. cbn. intros. subst. reflexivity.
Qed.

Lemma linear_total ov n pad bmin bmax (g : grid R) x (al : array R) :
  built ov 1 n pad bmin bmax g -> (1 <= pad)%Z -> array_on g al -> proper_box 1 bmin bmax ->
  interp_defined ov 1 -> in_lattice 1 n bmin bmax x ->
  exists v, linear_interp ov g x al = Ok v.
Proof.
  intros Hb Hpad Ha Hbox Hdef Hx.
  pose proof (h_pos ov 1 n pad bmin bmax g Hb Hbox AX eq_refl) as Hh. cbn [vget] in Hh.
  assert (He : exists i, encloses 1 n bmin bmax x (i, 0, 0)%Z).
  { exists (Rfloor (lc n bmin bmax AX (vx x))). intros [| |]; cbn [used Nat.leb ccoord vget]; try reflexivity.
    pose proof (Rfloor_spec (lc n bmin bmax AX (vx x))) as S.
    set (z := Rfloor _) in *. unfold lc, lattice_coord, centre in *. cbn [vget] in *. rewrite plus_IZR.
    set (h := spacing _ _ _) in *. set (w' := IZR z) in *.
    assert (E : (vx x - vx bmin) / h * h = vx x - vx bmin) by (field; lra).
    set (q := (vx x - vx bmin) / h) in *. destruct S as [S1 S2].
    clearbody q h w'. apply Rmult_le_compat_r with (r := h) in S1; [|lra]. apply Rmult_lt_compat_r with (r := h) in S2; [|lra]. lra. }
  destruct He as (i & He).
  destruct (linear_eval ov n pad bmin bmax g x al i Hb Hpad Ha Hbox Hdef Hx He) as (a0 & a1 & _ & _ & E). eauto.
Qed.

Lemma enclosing_unique ov dim n bmin bmax (g : grid R) x :
  built ov dim n 1 bmin bmax g -> proper_box dim bmin bmax ->
  exists c, encloses dim n bmin bmax x c /\ forall c', encloses dim n bmin bmax x c' -> c' = c.
Proof.
  intros Hb Hbox. eexists. split; [eapply base_encl; eauto|]. intros c' H. eapply encl_unique; eauto.
Qed.

Lemma oob_example S : exists g l, built Wrap 1 (V3 5 1 1)%Z 1 lo1 hi1 g /\ levelset_on g l /\
  stores Wrap 1 (V3 5 1 1)%Z 1 g l S /\ interpolate Wrap g (V3 (13 / 10) 0 0) l false = UB OutOfBounds /\
  exists f, interpolate Wrap g (V3 (11 / 10) 0 0) l false = Ok f.
Proof.
  destruct (stored_case Wrap 1 (V3 5 1 1)%Z 1 S (proj1 good_1d) I (or_introl eq_refl)) as (g & l & x & Hb & Hl & Hbox & HS & _).
  assert (Es : spacing (-1) 1 5 = 2 / 5) by (unfold spacing; field).
  exists g, l. split; [exact Hb|]. split; [exact Hl|]. split; [exact HS|]. split.
  - apply (interp_oob (V3 5 1 1)%Z lo1 hi1 g l (V3 (13 / 10) 0 0) false Hb Hl Hbox).
    + unfold lattice_coord. cbn [vx lo1 hi1]. rewrite Es. unfold INT_MIN, INT_MAX. lra.
    + intros H. specialize (H AX eq_refl). cbv zeta in H. cbn [vget vx lo1 hi1] in H. rewrite Es in H. lra.
  - apply (interp_total Wrap 1 (V3 5 1 1)%Z 1 lo1 hi1 g l (V3 (11 / 10) 0 0) false Hb ltac:(lia) Hl Hbox (or_introl eq_refl)).
    intros [| |] Hu; try discriminate Hu. cbv zeta. cbn [vget vx lo1 hi1]. rewrite Es. lra.
Qed.

Lemma compute_example S : exists g l xi, built Wrap 2 (V3 4 3 1)%Z 1 lo1 hi1 g /\ levelset_on g l /\
  stores Wrap 2 (V3 4 3 1)%Z 1 g l S /\ array_on g xi /\
  (forall c, interior_cell (V3 4 3 1)%Z c -> padded_cell 2 (V3 4 3 1)%Z 1 c) /\
  (forall i j k x, interior_cell (V3 4 3 1)%Z (i, j, k) -> aget Wrap g xi i j k = Ok x ->
     exists f, interpolate Wrap g x l false = Ok f).
Proof.
  destruct (stored_case Wrap 2 (V3 4 3 1)%Z 1 S (proj1 good_2d) I (or_introl eq_refl)) as (g & l & x & Hb & Hl & Hbox & HS & Hx).
  pose proof (built_ok _ _ _ _ _ _ _ Hb) as F. pose proof (bf_ok _ _ _ _ _ _ _ F) as Hg.
  destruct (array_of Wrap g (fun _ => x) Hg) as (xi & Sxi & Vxi & _).
  exists g, l, xi. split; [exact Hb|]. split; [exact Hl|]. split; [exact HS|].
  assert (HI : forall c, interior_cell (V3 4 3 1)%Z c -> padded_cell 2 (V3 4 3 1)%Z 1 c).
  { intros c Hc. eapply interior_padded; [apply Hb|exact Hc]. }
  split; [apply (array_on_shaped _ _ _ _ _ _ _ _ Hb); exact Sxi|]. split; [exact HI|].
  intros i j k y Hc E. apply HI in Hc. apply (built_gcell _ _ _ _ _ _ _ _ Hb) in Hc.
  rewrite (aget_peek_c Wrap) in E by auto. rewrite Vxi in E by auto. injection E as <-.
  eapply interp_total; eauto; [lia|left; reflexivity].
Qed.

Lemma affine_example (u w : R) : exists g al, built Wrap 1 (V3 5 1 1)%Z 1 lo1 hi1 g /\ array_on g al /\
  (forall i, padded_cell 1 (V3 5 1 1)%Z 1 (i, 0, 0)%Z ->
     exists p, node Wrap g i 0 0 = Ok p /\ aget Wrap g al i 0 0 = Ok (u + w * vx p)).
Proof.
  destruct (built_exists Wrap 1 (V3 5 1 1)%Z 1 lo1 hi1 (proj1 good_1d) I) as (g & Hb).
  pose proof (built_ok _ _ _ _ _ _ _ Hb) as F. pose proof (bf_ok _ _ _ _ _ _ _ F) as Hg.
  destruct (array_of Wrap g (fun c => match c with (i, j, k) => match node Wrap g i j k with Ok p => u + w * vx p | _ => 0 end end) Hg) as (al & Sa & Va & _).
  exists g, al. split; [exact Hb|]. split; [apply (array_on_shaped _ _ _ _ _ _ _ _ Hb); exact Sa|].
  intros i Hp. destruct (node_position _ _ _ _ _ _ _ _ _ _ Hb Hp) as (p & Np & _). exists p. split; [exact Np|].
  apply (built_gcell _ _ _ _ _ _ _ _ Hb) in Hp. rewrite (aget_peek_c Wrap) by auto. rewrite Va by auto. rewrite Np. reflexivity.
Qed.

Lemma padding_shift ov n pad bmin bmax (g : grid R) (l : levelset R) S i p :
  built ov 1 n pad bmin bmax g -> (1 <= pad)%Z -> levelset_on g l ->
  proper_box 1 bmin bmax -> interp_defined ov 1 -> stores ov 1 n pad g l S ->
  (- pad <= i <= vx n - pad)%Z -> node ov g i 0 0 = Ok p ->
  let m := (i + pad - 1)%Z in let h := spacing (vx bmin) (vx bmax) (vx n) in
  exists f, interpolate ov g p l false = Ok f /\
    f_phi f = bezier (cv (S (m, 0, 0)%Z)) (cv (S (m, 0, 0)%Z) + cv_x (S (m, 0, 0)%Z) * h / 3)
                     (cv (S (m + 1, 0, 0)%Z) - cv_x (S (m + 1, 0, 0)%Z) * h / 3) (cv (S (m + 1, 0, 0)%Z)) (1 - IZR pad).
Proof.
  intros Hb Hpad Hl Hbox Hdef HS Hi Hn m h.
  assert (Hp : padded_cell 1 n pad (i, 0, 0)%Z) by (intros [| |]; cbn; lia).
  destruct (node_position _ _ _ _ _ _ _ _ _ _ Hb Hp) as (p' & Np & Vp). rewrite Hn in Np. inversion Np; subst p'. clear Np.
  specialize (Vp AX). cbn [used vget ccoord] in Vp. fold h in Vp.
  pose proof (h_pos ov 1 n pad bmin bmax g Hb Hbox AX eq_refl) as Hh. cbn [vget] in Hh. fold h in Hh.
  pose proof (good_used _ _ _ AX (proj1 Hb) eq_refl) as Hn1. cbn [vget] in Hn1.
  assert (Ec : vx p = centre (vx bmin) (vx bmax) (vx n) m).
  { rewrite Vp. unfold centre, m. fold h. rewrite minus_IZR, plus_IZR. lra. }
  assert (Ebox : vx bmax = vx bmin + IZR (vx n) * h).
  { unfold h, spacing. field. apply not_0_IZR. lia. }
  assert (Hm : IZR (-1) <= IZR m /\ IZR m + 1 <= IZR (vx n)).
  { split; [apply IZR_le; unfold m; lia|]. rewrite <- plus_IZR. apply IZR_le. unfold m. lia. }
  assert (Hx : in_lattice 1 n bmin bmax p).
  { intros [| |] Hu; try discriminate Hu. cbv zeta. cbn [vget]. fold h. rewrite Ec. unfold centre. fold h. rewrite Ebox. clearbody h.
    clear - Hm Hh. destruct Hm as [H1 H2].
    apply Rmult_le_compat_r with (r := h) in H1; [|lra]. apply Rmult_le_compat_r with (r := h) in H2; [|lra].
    split; lra. }
  assert (He : encloses 1 n bmin bmax p (m, 0, 0)%Z).
  { intros [| |]; cbn [used Nat.leb ccoord vget]; try reflexivity. rewrite Ec. unfold centre. fold h. rewrite plus_IZR. lra. }
  destruct (interp_1d ov n pad bmin bmax g l S p m false Hb Hpad Hl Hbox Hdef HS Hx He) as (f & Ef & Vf). cbv zeta in Vf.
  exists f. split; [exact Ef|]. rewrite Vf. cbn [fst snd bez]. fold h. f_equal. rewrite Ec. unfold Rdiv. ring.
Qed.

Lemma limiter_counterexample : exists (g : grid R) (l : levelset R) f f',
  built Wrap 1 (V3 5 1 1)%Z 1 lo1 hi1 g /\ levelset_on g l /\
  (forall i, padded_cell 1 (V3 5 1 1)%Z 1 (i, 0, 0)%Z -> exists p s, node Wrap g i 0 0 = Ok p /\
     aget Wrap g (ls_phi_prev l) i 0 0 = Ok (vx p ^ 2) /\ aget Wrap g (ls_psi_prev l) i 0 0 = Ok s /\ vx s = 2 * vx p) /\
  interpolate Wrap g (V3 (/ 5) 0 0) l false = Ok f /\ f_phi f = / 25 /\
  interpolate Wrap g (V3 (/ 5) 0 0) l true = Ok f' /\ f_phi f' = 2 / 25.
Proof.
  set (c := fun i j k : nat => match i, j, k with 2%nat, 0%nat, 0%nat => 1 | _, _, _ => 0 end).
  destruct (sampled_case Wrap 1 (V3 5 1 1)%Z 1 c (proj1 good_1d) I (or_introl eq_refl)) as (g & l & x & Hb & Hl & Hbox & HS & _).
  assert (Es : spacing (-1) 1 5 = 2 / 5) by (unfold spacing; field).
  assert (Hx : in_lattice 1 (V3 5 1 1)%Z lo1 hi1 (V3 (/ 5) 0 0)).
  { intros [| |] Hu; try discriminate Hu. cbv zeta. cbn [vget vx lo1 hi1]. rewrite Es. lra. }
  assert (HQ : forall i, padded_cell 1 (V3 5 1 1)%Z 1 (i, 0, 0)%Z -> exists p s, node Wrap g i 0 0 = Ok p /\
     aget Wrap g (ls_phi_prev l) i 0 0 = Ok (vx p ^ 2) /\ aget Wrap g (ls_psi_prev l) i 0 0 = Ok s /\ vx s = 2 * vx p).
  { intros i Hp. destruct (HS _ _ _ Hp) as (p & Np & A & (s & B & B') & _). exists p, s. split; [exact Np|].
    split; [rewrite A; f_equal; unfold poly, tricubic, P1, cubic, c; cbn; ring|]. split; [exact B|].
    change (vx s) with (vget s AX). rewrite (B' AX eq_refl). unfold dpoly, tricubic, P1, cubic, cubic', c. cbn. ring. }
  destruct (interp_exact_pad Wrap 1 (V3 5 1 1)%Z 1 lo1 hi1 g l Hb ltac:(lia) Hl Hbox (or_introl eq_refl) c _ HS Hx) as (f & Ef & Vf & _).
  destruct (limited_quadratic Wrap (V3 5 1 1)%Z lo1 hi1 g l (V3 (/ 5) 0 0) 0 0 1 Hb Hl Hbox (or_introl eq_refl) Hx) as (i & f' & Hi & Ef' & Vf').
  { intros i Hp. destruct (HQ i Hp) as (p & s & Np & A & B & C). exists p, s. split; [exact Np|].
    split; [rewrite A; f_equal; ring|]. split; [exact B|]. rewrite C. ring. }
  exists g, l, f, f'. split; [exact Hb|]. split; [exact Hl|]. split; [exact HQ|]. split; [exact Ef|].
  split; [rewrite Vf; unfold poly, tricubic, P1, cubic, c; cbn; lra|]. split; [exact Ef'|].
  unfold centre in Hi, Vf'. cbn [vx lo1 hi1] in Hi, Vf'. rewrite Es in *. rewrite plus_IZR in *.
  assert (Ei : i = 2%Z).
  { assert (1 < i)%Z by (apply lt_IZR; lra). assert (i < 3)%Z by (apply lt_IZR; lra). lia. }
  subst i. rewrite Vf'. lra.
Qed.

(** C64 over the rationals, by evaluation *)
Definition q_levelset : levelset Q :=
  let mk {A} (a : list A) : array A := mkArray (V3 5 1 1)%Z 2%Z a in
  let zs := repeat 0%Q 9 in let vs := repeat (V3 0 0 0)%Q 9 in let ms := repeat ([] : list Q) 9 in
  mkLS (mk zs) (mk vs) (mk ms) (mk [0; 0; 0; 1; 0; 0; 0; 0; 0]%Q) (mk vs) (mk ms) (mk zs) (mk vs).
Lemma good_1d2 : good_sizes 1 (V3 5 1 1)%Z 2.
Proof. split; [lia|]. split; [lia|]. split; [intros [| |]; cbn; lia|]. cbn. unfold INT_MAX. lia. Qed.
Lemma padding_counterexample : exists (g : grid Q) (l : levelset Q) p f,
  built Wrap 1 (V3 5 1 1)%Z 2 (V3 0 0 0)%Q (V3 5 1 1)%Q g /\ levelset_on g l /\
  node Wrap g 1 0 0 = Ok p /\ aget Wrap g (ls_phi_prev l) 1 0 0 = Ok 1%Q /\
  interpolate Wrap g p l false = Ok f /\ (f_phi f == 0)%Q.
Proof.
  destruct (make_grid Wrap 1 (V3 5 1 1)%Z 2 (V3 0 0 0)%Q (V3 5 1 1)%Q) as [g| | |] eqn:E; vm_compute in E; try discriminate E.
  injection E as <-.
  eexists. exists q_levelset. eexists. eexists. split; [split; [exact good_1d2|split; [exact I|vm_compute; reflexivity]]|].
  split; [split; repeat split; cbn; repeat constructor|].
  split; [vm_compute; reflexivity|]. split; [vm_compute; reflexivity|]. split; [vm_compute; reflexivity|]. vm_compute. reflexivity.
Qed.
