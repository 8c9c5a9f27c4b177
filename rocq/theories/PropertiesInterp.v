(** Properties C16-C26, C64, C65: Hermite and linear interpolation. *)
From Coq Require Import ZArith List Reals Lra QArith.
From Verif Require Import Base Num ModelVec ModelGrid ModelArray ModelInterp SpecGrid SpecInterp
  ProofsGridProps ProofsInterpProps ProofsInterpMore ProofsInterpApi ProofsInterpCases ProofsCalc.
Open Scope R_scope.

(** *** C16-C18 (the polynomial's derivative vocabulary first: the flags are partial derivatives) *)
Theorem C16_dpoly_is_derivative : forall c p a,
  derivable_pt_lim (fun t => poly c (vset p a t)) (vget p a) (dpoly a c p).
Proof. exact dpoly_derive. Qed.
Print Assumptions C16_dpoly_is_derivative.
Theorem C17_mixed_is_derivative : forall c p dz,
  derivable_pt_lim (fun t => tricubic true false dz c (vset p AY t)) (vy p) (tricubic true true dz c p).
Proof. exact tricubic_derive_y. Qed.
Print Assumptions C17_mixed_is_derivative.
Theorem C18_mixed_is_derivative : forall c p dx dy,
  derivable_pt_lim (fun t => tricubic dx dy false c (vset p AZ t)) (vz p) (tricubic dx dy true c p).
Proof. exact tricubic_derive_z. Qed.
Print Assumptions C18_mixed_is_derivative.

Theorem C16_cubic_exact : forall ov n pad bmin bmax (g : grid R) (l : levelset R) c x,
  built ov 1 n pad bmin bmax g -> (1 <= pad)%Z -> levelset_on g l -> proper_box 1 bmin bmax -> interp_defined ov 1 ->
  sampled_nodes ov 1 n pad g l c -> in_lattice 1 n bmin bmax x ->
  exists f, interpolate ov g x l false = Ok f /\ f_phi f = poly c (flat 1 x) /\
    forall a, vget (f_psi f) a = if used 1 a then dpoly a c (flat 1 x) else 0.
Proof. exact (fun ov n pad bmin bmax g l c x Hb Hp Hl Hbox Hd HS Hx =>
  interp_exact_pad ov 1 n pad bmin bmax g l Hb Hp Hl Hbox Hd c x HS Hx). Qed.
Print Assumptions C16_cubic_exact.
Example C16_example : forall c, exists g l x, built Wrap 1 (V3 5 1 1)%Z 1 lo1 hi1 g /\ levelset_on g l /\
  proper_box 1 lo1 hi1 /\ sampled_nodes Wrap 1 (V3 5 1 1)%Z 1 g l c /\ in_lattice 1 (V3 5 1 1)%Z lo1 hi1 x.
Proof. intros c. apply sampled_case; [apply (proj1 good_1d)|exact I|left; reflexivity]. Qed.

Theorem C17_bicubic_exact : forall ov n pad bmin bmax (g : grid R) (l : levelset R) c x,
  built ov 2 n pad bmin bmax g -> (1 <= pad)%Z -> levelset_on g l -> proper_box 2 bmin bmax -> interp_defined ov 2 ->
  sampled_nodes ov 2 n pad g l c -> in_lattice 2 n bmin bmax x ->
  exists f, interpolate ov g x l false = Ok f /\ f_phi f = poly c (flat 2 x) /\
    forall a, vget (f_psi f) a = if used 2 a then dpoly a c (flat 2 x) else 0.
Proof. exact (fun ov n pad bmin bmax g l c x Hb Hp Hl Hbox Hd HS Hx =>
  interp_exact_pad ov 2 n pad bmin bmax g l Hb Hp Hl Hbox Hd c x HS Hx). Qed.
Print Assumptions C17_bicubic_exact.
Example C17_example : forall c, exists g l x, built Wrap 2 (V3 4 3 1)%Z 1 lo1 hi1 g /\ levelset_on g l /\
  proper_box 2 lo1 hi1 /\ sampled_nodes Wrap 2 (V3 4 3 1)%Z 1 g l c /\ in_lattice 2 (V3 4 3 1)%Z lo1 hi1 x.
Proof. intros c. apply sampled_case; [apply (proj1 good_2d)|exact I|left; reflexivity]. Qed.

Theorem C18_tricubic_exact : forall ov n pad bmin bmax (g : grid R) (l : levelset R) c x,
  built ov 3 n pad bmin bmax g -> (1 <= pad)%Z -> levelset_on g l -> proper_box 3 bmin bmax ->
  sampled_nodes ov 3 n pad g l c -> in_lattice 3 n bmin bmax x ->
  exists f, interpolate ov g x l false = Ok f /\ f_phi f = poly c x /\
    forall a, vget (f_psi f) a = dpoly a c x.
Proof. exact interp_exact_3d. Qed.
Print Assumptions C18_tricubic_exact.
Example C18_example : forall c, exists g l x, built Trap 3 (V3 2 3 4)%Z 1 lo1 hi1 g /\ levelset_on g l /\
  proper_box 3 lo1 hi1 /\ sampled_nodes Trap 3 (V3 2 3 4)%Z 1 g l c /\ in_lattice 3 (V3 2 3 4)%Z lo1 hi1 x.
Proof. intros c. apply sampled_case; [apply good_3d1|left; reflexivity|right; reflexivity]. Qed.

(** *** C19 (default padding; for larger padding see C64) *)
Theorem C19_node_data : forall ov dim n bmin bmax (g : grid R) (l : levelset R) i j k p,
  built ov dim n 1 bmin bmax g -> levelset_on g l -> proper_box dim bmin bmax -> interp_defined ov dim ->
  padded_cell dim n 1 (i, j, k) -> (forall a, used dim a = true -> (ccoord (i, j, k) a < vget n a)%Z) ->
  node ov g i j k = Ok p ->
  exists f phi psi, interpolate ov g p l false = Ok f /\
    aget ov g (ls_phi_prev l) i j k = Ok phi /\ aget ov g (ls_psi_prev l) i j k = Ok psi /\
    f_phi f = phi /\ forall a, vget (f_psi f) a = if used dim a then vget psi a else 0.
Proof. exact (fun ov dim n bmin bmax g l i j k p Hb Hl Hbox Hd Hp Hlt Hn =>
  interp_node ov dim n bmin bmax g l Hb Hl Hbox Hd i j k p Hp Hlt Hn). Qed.
Print Assumptions C19_node_data.
Theorem C19_node_value_limited : forall ov dim n bmin bmax (g : grid R) (l : levelset R) i j k p lim,
  built ov dim n 1 bmin bmax g -> levelset_on g l -> proper_box dim bmin bmax -> interp_defined ov dim ->
  padded_cell dim n 1 (i, j, k) -> (forall a, used dim a = true -> (ccoord (i, j, k) a < vget n a)%Z) ->
  node ov g i j k = Ok p ->
  exists f, interpolate ov g p l lim = Ok f /\ aget ov g (ls_phi_prev l) i j k = Ok (f_phi f).
Proof. exact (fun ov dim n bmin bmax g l i j k p lim Hb Hl Hbox Hd Hp Hlt Hn =>
  interp_node_limited ov dim n bmin bmax g l Hb Hl Hbox Hd i j k p lim Hp Hlt Hn). Qed.
Print Assumptions C19_node_value_limited.
Example C19_example : forall S, exists g l x, built Wrap 2 (V3 4 3 1)%Z 1 lo1 hi1 g /\ levelset_on g l /\
  proper_box 2 lo1 hi1 /\ stores Wrap 2 (V3 4 3 1)%Z 1 g l S /\ in_lattice 2 (V3 4 3 1)%Z lo1 hi1 x.
Proof. intros S. apply stored_case; [apply (proj1 good_2d)|exact I|left; reflexivity]. Qed.

(** *** C20: psi is the partial derivative of phi at every position of the lattice, on cell faces
    too, and 0 on unused axes.  C21: both are continuous there. *)
Theorem C20_psi_is_gradient : forall ov dim n bmin bmax (g : grid R) (l : levelset R),
  built ov dim n 1 bmin bmax g -> levelset_on g l -> proper_box dim bmin bmax -> interp_defined ov dim ->
  exists F, (forall y, in_lattice dim n bmin bmax y -> interpolate ov g y l false = Ok (F y)) /\
   (forall x a, in_lattice dim n bmin bmax x -> used dim a = true ->
      vget bmin a - spacing (vget bmin a) (vget bmax a) (vget n a) / 2 < vget x a ->
      derivable_pt_lim (fun t => f_phi (F (vset x a t))) (vget x a) (vget (f_psi (F x)) a)) /\
   (forall x a, in_lattice dim n bmin bmax x -> used dim a = false -> vget (f_psi (F x)) a = 0).
Proof. exact interp_field_gradient. Qed.
Print Assumptions C20_psi_is_gradient.
Example C20_example : forall S, exists g l x, built Trap 3 (V3 2 3 4)%Z 1 lo1 hi1 g /\ levelset_on g l /\
  proper_box 3 lo1 hi1 /\ stores Trap 3 (V3 2 3 4)%Z 1 g l S /\ in_lattice 3 (V3 2 3 4)%Z lo1 hi1 x.
Proof. intros S. apply stored_case; [apply good_3d1|left; reflexivity|right; reflexivity]. Qed.

Theorem C21_continuously_differentiable : forall ov dim n bmin bmax (g : grid R) (l : levelset R),
  built ov dim n 1 bmin bmax g -> levelset_on g l -> proper_box dim bmin bmax -> interp_defined ov dim ->
  exists F, (forall y, in_lattice dim n bmin bmax y -> interpolate ov g y l false = Ok (F y)) /\
   (forall x eps, in_lattice dim n bmin bmax x -> 0 < eps ->
      exists d, 0 < d /\ forall y, in_lattice dim n bmin bmax y ->
        (forall a, used dim a = true -> Rabs (vget y a - vget x a) < d) ->
        Rabs (f_phi (F y) - f_phi (F x)) < eps /\
        forall a, Rabs (vget (f_psi (F y)) a - vget (f_psi (F x)) a) < eps).
Proof. exact interp_field_continuous. Qed.
Print Assumptions C21_continuously_differentiable.
Example C21_example : forall S, exists g l x, built Wrap 1 (V3 5 1 1)%Z 1 lo1 hi1 g /\ levelset_on g l /\
  proper_box 1 lo1 hi1 /\ stores Wrap 1 (V3 5 1 1)%Z 1 g l S /\ in_lattice 1 (V3 5 1 1)%Z lo1 hi1 x.
Proof. intros S. apply stored_case; [apply (proj1 good_1d)|exact I|left; reflexivity]. Qed.

(** *** C22 *)
Theorem C22_control_values : forall p0 s0 p1 s1 h : R,
  (let cp := get_control_points p0 s0 p1 s1 h false in
   c_30 cp = p0 /\ c_21 cp = p0 + s0 * h / 3 /\ c_12 cp = p1 - s1 * h / 3 /\ c_03 cp = p1) /\
  (let cp := get_control_points p0 s0 p1 s1 h true in
   c_30 cp = p0 /\ c_03 cp = p1 /\ (c_21 cp, c_12 cp) = limited p0 s0 p1 s1 h) /\
  (0 < (s0 * h - (p1 - p0)) * (s1 * h - (p1 - p0)) ->
   get_control_points p0 s0 p1 s1 h true = get_control_points p0 s0 p1 s1 h false).
Proof. exact limiter_all. Qed.
Print Assumptions C22_control_values.
Theorem C22_limited_interpolant_1d : forall ov n pad bmin bmax (g : grid R) (l : levelset R) S x i lim,
  built ov 1 n pad bmin bmax g -> (1 <= pad)%Z -> levelset_on g l ->
  proper_box 1 bmin bmax -> interp_defined ov 1 -> stores ov 1 n pad g l S -> in_lattice 1 n bmin bmax x ->
  encloses 1 n bmin bmax x (i, 0, 0)%Z ->
  let h := spacing (vx bmin) (vx bmax) (vx n) in
  let t := (vx x - centre (vx bmin) (vx bmax) (vx n) i) / h in
  let s0 := S (i, 0, 0)%Z in let s1 := S (i + 1, 0, 0)%Z in
  let inner := if lim : bool then limited (cv s0) (cv_x s0) (cv s1) (cv_x s1) h
               else (bez 1 (cv s0) (cv_x s0) (cv s1) (cv_x s1) h, bez 2 (cv s0) (cv_x s0) (cv s1) (cv_x s1) h) in
  exists f, interpolate ov g x l lim = Ok f /\
    f_phi f = bezier (cv s0) (fst inner) (snd inner) (cv s1) (t - (IZR pad - 1)).
Proof. exact interp_1d. Qed.
Print Assumptions C22_limited_interpolant_1d.
Example C22_example : exists p0 s0 p1 s1 h : R, 0 < (s0 * h - (p1 - p0)) * (s1 * h - (p1 - p0)).
Proof. exists 0, 2, 1, 3, 1. nra. Qed.

(** *** C23 *)
Theorem C23_defined_inside : forall ov dim n pad bmin bmax (g : grid R) (l : levelset R) x lim,
  built ov dim n pad bmin bmax g -> (1 <= pad)%Z -> levelset_on g l -> proper_box dim bmin bmax ->
  interp_defined ov dim -> in_lattice dim n bmin bmax x ->
  exists f, interpolate ov g x l lim = Ok f.
Proof. exact interp_total. Qed.
Print Assumptions C23_defined_inside.
Theorem C23_linear_defined_inside : forall ov n pad bmin bmax (g : grid R) x (al : array R),
  built ov 1 n pad bmin bmax g -> (1 <= pad)%Z -> array_on g al -> proper_box 1 bmin bmax ->
  interp_defined ov 1 -> in_lattice 1 n bmin bmax x ->
  exists v, linear_interp ov g x al = Ok v.
Proof. exact linear_total. Qed.
Print Assumptions C23_linear_defined_inside.
Theorem C23_out_of_bounds_outside : forall n bmin bmax (g : grid R) (l : levelset R) x lim,
  built Wrap 1 n 1 bmin bmax g -> levelset_on g l -> proper_box 1 bmin bmax ->
  IZR INT_MIN <= lattice_coord (vx bmin) (vx bmax) (vx n) (vx x) < IZR INT_MAX - 1 ->
  ~ in_lattice 1 n bmin bmax x ->
  interpolate Wrap g x l lim = UB OutOfBounds.
Proof. exact interp_oob. Qed.
Print Assumptions C23_out_of_bounds_outside.
Example C23_example : forall S, exists g l, built Wrap 1 (V3 5 1 1)%Z 1 lo1 hi1 g /\ levelset_on g l /\
  stores Wrap 1 (V3 5 1 1)%Z 1 g l S /\ interpolate Wrap g (V3 (13 / 10) 0 0) l false = UB OutOfBounds /\
  exists f, interpolate Wrap g (V3 (11 / 10) 0 0) l false = Ok f.
Proof. exact oob_example. Qed.

(** *** C24 *)
Theorem C24_compute_frame : forall (T : Type) (NT : Num T) ov dim n pad bmin bmax (g : grid T)
    dim' n' pad' bmin' bmax' (gx : grid T) (xi : array (vec3 T)) (l : levelset T),
  built ov dim n pad bmin bmax g -> levelset_on g l ->
  built ov dim' n' pad' bmin' bmax' gx -> array_on gx xi ->
  (forall c, interior_cell n' c -> padded_cell dim n pad c) ->
  (forall i j k x, interior_cell n' (i, j, k) -> aget ov gx xi i j k = Ok x ->
     exists f, interpolate ov g x l false = Ok f) ->
  exists l', hermite_compute ov gx xi g l = Ok l' /\ levelset_on g l' /\
    (forall i j k, interior_cell n' (i, j, k) -> exists x f,
       aget ov gx xi i j k = Ok x /\ interpolate ov g x l false = Ok f /\
       aget ov g (ls_phi_interp l') i j k = Ok (f_phi f) /\ aget ov g (ls_psi_interp l') i j k = Ok (f_psi f)) /\
    (forall i j k, padded_cell dim n pad (i, j, k) -> ~ interior_cell n' (i, j, k) ->
       aget ov g (ls_phi_interp l') i j k = aget ov g (ls_phi_interp l) i j k /\
       aget ov g (ls_psi_interp l') i j k = aget ov g (ls_psi_interp l) i j k) /\
    ls_phi l' = ls_phi l /\ ls_psi l' = ls_psi l /\ ls_mix l' = ls_mix l /\ ls_phi_prev l' = ls_phi_prev l /\
    ls_psi_prev l' = ls_psi_prev l /\ ls_mix_prev l' = ls_mix_prev l.
Proof. exact @compute_frame. Qed.
Print Assumptions C24_compute_frame.
Theorem C24_linear_compute_frame : forall (T : Type) (NT : Num T) ov dim n pad bmin bmax (g : grid T)
    dim' n' pad' bmin' bmax' (gx : grid T) (xi : array (vec3 T)) (ga : grid T) (al r : array T),
  built ov dim n pad bmin bmax g -> array_on g r ->
  built ov dim' n' pad' bmin' bmax' gx -> array_on gx xi ->
  (forall c, interior_cell n' c -> padded_cell dim n pad c) ->
  (forall i j k x, interior_cell n' (i, j, k) -> aget ov gx xi i j k = Ok x ->
     exists v, linear_interp ov ga x al = Ok v) ->
  exists r', linear_compute ov gx xi ga al g r = Ok r' /\ array_on g r' /\
    (forall i j k, interior_cell n' (i, j, k) -> exists x v,
       aget ov gx xi i j k = Ok x /\ linear_interp ov ga x al = Ok v /\ aget ov g r' i j k = Ok v) /\
    (forall i j k, padded_cell dim n pad (i, j, k) -> ~ interior_cell n' (i, j, k) ->
       aget ov g r' i j k = aget ov g r i j k).
Proof. exact @linear_frame. Qed.
Print Assumptions C24_linear_compute_frame.
Example C24_example : forall S, exists g l xi, built Wrap 2 (V3 4 3 1)%Z 1 lo1 hi1 g /\ levelset_on g l /\
  stores Wrap 2 (V3 4 3 1)%Z 1 g l S /\ array_on g xi /\
  (forall c, interior_cell (V3 4 3 1)%Z c -> padded_cell 2 (V3 4 3 1)%Z 1 c) /\
  (forall i j k x, interior_cell (V3 4 3 1)%Z (i, j, k) -> aget Wrap g xi i j k = Ok x ->
     exists f, interpolate Wrap g x l false = Ok f).
Proof. exact compute_example. Qed.

(** *** C25 *)
Theorem C25_linear_between_neighbours : forall ov n bmin bmax (g : grid R) x (al : array R),
  built ov 1 n 1 bmin bmax g -> array_on g al ->
  proper_box 1 bmin bmax -> interp_defined ov 1 -> in_lattice 1 n bmin bmax x ->
  exists i a0 a1 v, padded_cell 1 n 1 (i, 0, 0)%Z /\ padded_cell 1 n 1 (i + 1, 0, 0)%Z /\
    centre (vx bmin) (vx bmax) (vx n) i <= vx x < centre (vx bmin) (vx bmax) (vx n) (i + 1) /\
    aget ov g al i 0 0 = Ok a0 /\ aget ov g al (i + 1) 0 0 = Ok a1 /\
    linear_interp ov g x al = Ok v /\ Rmin a0 a1 <= v <= Rmax a0 a1 /\
    v = a0 + (vx x - centre (vx bmin) (vx bmax) (vx n) i) / spacing (vx bmin) (vx bmax) (vx n) * (a1 - a0).
Proof. exact linear_props. Qed.
Print Assumptions C25_linear_between_neighbours.
Theorem C25_linear_exact_on_affine : forall ov n pad bmin bmax (g : grid R) x (al : array R) (u w : R),
  built ov 1 n pad bmin bmax g -> (1 <= pad)%Z -> array_on g al ->
  proper_box 1 bmin bmax -> interp_defined ov 1 -> in_lattice 1 n bmin bmax x ->
  (forall i, padded_cell 1 n pad (i, 0, 0)%Z ->
     exists p, node ov g i 0 0 = Ok p /\ aget ov g al i 0 0 = Ok (u + w * vx p)) ->
  linear_interp ov g x al = Ok (u + w * vx x).
Proof. exact linear_affine. Qed.
Print Assumptions C25_linear_exact_on_affine.
Example C25_example : forall u w : R, exists g al, built Wrap 1 (V3 5 1 1)%Z 1 lo1 hi1 g /\ array_on g al /\
  (forall i, padded_cell 1 (V3 5 1 1)%Z 1 (i, 0, 0)%Z ->
     exists p, node Wrap g i 0 0 = Ok p /\ aget Wrap g al i 0 0 = Ok (u + w * vx p)).
Proof. exact affine_example. Qed.

(** *** C26 *)
Theorem C26_hull : forall ov dim n bmin bmax (g : grid R) (l : levelset R) S x c lo hi,
  built ov dim n 1 bmin bmax g -> levelset_on g l -> proper_box dim bmin bmax -> interp_defined ov dim ->
  stores ov dim n 1 g l S -> in_lattice dim n bmin bmax x -> encloses dim n bmin bmax x c ->
  (forall p q r, lo <= net dim S (spacings n bmin bmax) c p q r <= hi) ->
  exists f, interpolate ov g x l false = Ok f /\ lo <= f_phi f <= hi.
Proof. exact (fun ov dim n bmin bmax g l S x c lo hi Hb Hl Hbox Hd HS Hx Hc HN =>
  interp_hull ov dim n bmin bmax g l Hb Hl Hbox Hd S x c lo hi HS Hx Hc HN). Qed.
Print Assumptions C26_hull.
Theorem C26_enclosing_cell : forall ov dim n bmin bmax (g : grid R) x,
  built ov dim n 1 bmin bmax g -> proper_box dim bmin bmax ->
  exists c, encloses dim n bmin bmax x c /\ forall c', encloses dim n bmin bmax x c' -> c' = c.
Proof. exact enclosing_unique. Qed.
Print Assumptions C26_enclosing_cell.

(** *** C64: with more ghost layers than one, interpolation extrapolates and misses the node values *)
Theorem C64_padding_shift_1d_partial : forall ov n pad bmin bmax (g : grid R) (l : levelset R) S i p,
  built ov 1 n pad bmin bmax g -> (1 <= pad)%Z -> levelset_on g l ->
  proper_box 1 bmin bmax -> interp_defined ov 1 -> stores ov 1 n pad g l S ->
  (- pad <= i <= vx n - pad)%Z -> node ov g i 0 0 = Ok p ->
  let m := (i + pad - 1)%Z in let h := spacing (vx bmin) (vx bmax) (vx n) in
  exists f, interpolate ov g p l false = Ok f /\
    f_phi f = bezier (cv (S (m, 0, 0)%Z)) (cv (S (m, 0, 0)%Z) + cv_x (S (m, 0, 0)%Z) * h / 3)
                     (cv (S (m + 1, 0, 0)%Z) - cv_x (S (m + 1, 0, 0)%Z) * h / 3) (cv (S (m + 1, 0, 0)%Z)) (1 - IZR pad).
Proof. exact padding_shift. Qed.
Print Assumptions C64_padding_shift_1d_partial.
Theorem C64_refuted : exists (g : grid Q) (l : levelset Q) p f,
  built Wrap 1 (V3 5 1 1)%Z 2 (V3 0 0 0)%Q (V3 5 1 1)%Q g /\ levelset_on g l /\
  node Wrap g 1 0 0 = Ok p /\ aget Wrap g (ls_phi_prev l) 1 0 0 = Ok 1%Q /\
  interpolate Wrap g p l false = Ok f /\ (f_phi f == 0)%Q.
Proof. exact padding_counterexample. Qed.
Print Assumptions C64_refuted.

(** *** C65: gradient limiting replaces quadratic data by straight lines *)
Theorem C65_limited_quadratic_partial : forall ov n bmin bmax (g : grid R) (l : levelset R) x u w q,
  built ov 1 n 1 bmin bmax g -> levelset_on g l ->
  proper_box 1 bmin bmax -> interp_defined ov 1 -> in_lattice 1 n bmin bmax x ->
  (forall i, padded_cell 1 n 1 (i, 0, 0)%Z -> exists p s, node ov g i 0 0 = Ok p /\
     aget ov g (ls_phi_prev l) i 0 0 = Ok (u + w * vx p + q * vx p ^ 2) /\
     aget ov g (ls_psi_prev l) i 0 0 = Ok s /\ vx s = w + 2 * q * vx p) ->
  exists i f, let c := centre (vx bmin) (vx bmax) (vx n) in
    c i <= vx x < c (i + 1)%Z /\ interpolate ov g x l true = Ok f /\
    f_phi f = (u + w * vx x + q * vx x ^ 2) + q * (vx x - c i) * (c (i + 1)%Z - vx x).
Proof. exact limited_quadratic. Qed.
Print Assumptions C65_limited_quadratic_partial.
Theorem C65_refuted : exists (g : grid R) (l : levelset R) f f',
  built Wrap 1 (V3 5 1 1)%Z 1 lo1 hi1 g /\ levelset_on g l /\
  (forall i, padded_cell 1 (V3 5 1 1)%Z 1 (i, 0, 0)%Z -> exists p s, node Wrap g i 0 0 = Ok p /\
     aget Wrap g (ls_phi_prev l) i 0 0 = Ok (vx p ^ 2) /\ aget Wrap g (ls_psi_prev l) i 0 0 = Ok s /\ vx s = 2 * vx p) /\
  interpolate Wrap g (V3 (/ 5) 0 0) l false = Ok f /\ f_phi f = / 25 /\
  interpolate Wrap g (V3 (/ 5) 0 0) l true = Ok f' /\ f_phi f' = 2 / 25.
Proof. exact limiter_counterexample. Qed.
Print Assumptions C65_refuted.
