(** Independent vocabulary for the 1-D loop: the fields along the line, cubic segments and their
    bending energy. *)
From Coq Require Import ZArith List Reals.
From Verif Require Import Base Num ModelVec ModelGrid ModelArray SpecGrid SpecInterp.
Open Scope R_scope.

(** The fields of a 1-D level set: P i and S i are phi and the x component of psi in cell i, from the
    ghost cell -1 to the ghost cell n (padding 1). *)
Definition line (ov : ovmode) (n : Z) (g : grid R) (l : levelset R) (P S : Z -> R) : Prop :=
  forall i, (-1 <= i <= n)%Z ->
    aget ov g (ls_phi l) i 0 0 = Ok (P i) /\ exists y, aget ov g (ls_psi l) i 0 0 = Ok y /\ vx y = S i.

(** The cubic on [0,h] with end values p0, p1 and end slopes s0, s1: its coefficients of t^2 and t^3. *)
Definition co2 (p0 s0 p1 s1 h : R) : R := (3 * (p1 - p0) / h - 2 * s0 - s1) / h.
Definition co3 (p0 s0 p1 s1 h : R) : R := (s0 + s1 - 2 * (p1 - p0) / h) / h ^ 2.
Definition seg (p0 s0 p1 s1 h t : R) : R := p0 + s0 * t + co2 p0 s0 p1 s1 h * t ^ 2 + co3 p0 s0 p1 s1 h * t ^ 3.
Definition seg' (p0 s0 p1 s1 h t : R) : R := s0 + 2 * co2 p0 s0 p1 s1 h * t + 3 * co3 p0 s0 p1 s1 h * t ^ 2.
Definition seg'' (p0 s0 p1 s1 h t : R) : R := 2 * co2 p0 s0 p1 s1 h + 6 * co3 p0 s0 p1 s1 h * t.

(** Its bending energy: the integral of (seg'')^2 over [0,h] (that it is, is theorem C119_energy_is_integral). *)
Definition bend (p0 s0 p1 s1 h : R) : R := (12 * ((p1 - p0) / h - (s0 + s1) / 2) ^ 2 + (s1 - s0) ^ 2) / h.

(** Energy of the k segments between the cells a, a+1, ..., a+k. *)
Fixpoint energy (P S : Z -> R) (h : R) (a : Z) (k : nat) : R :=
  match k with
  | O => 0
  | Datatypes.S k => bend (P a) (S a) (P (a + 1)%Z) (S (a + 1)%Z) h + energy P S h (a + 1) k
  end.

(** The fields along the line are values and slopes of f (f1 is its derivative). *)
Definition samples_line (ov : ovmode) (n : Z) (g : grid R) (l : levelset R) (f f1 : R -> R) : Prop :=
  forall i, (-1 <= i <= n)%Z -> exists p y, node ov g i 0 0 = Ok p /\
    aget ov g (ls_phi l) i 0 0 = Ok (f (vx p)) /\ aget ov g (ls_psi l) i 0 0 = Ok y /\ vx y = f1 (vx p).
(** In the cells from a to b they differ from the values and slopes of f, shifted by D, by at most ev and es. *)
Definition near_line (ov : ovmode) (g : grid R) (l : levelset R) (f f1 : R -> R) (D : R) (a b : Z) (ev es : R) : Prop :=
  forall i, (a <= i <= b)%Z -> exists p v y, node ov g i 0 0 = Ok p /\
    aget ov g (ls_phi l) i 0 0 = Ok v /\ aget ov g (ls_psi l) i 0 0 = Ok y /\
    Rabs (v - f (vx p - D)) <= ev /\ Rabs (vx y - f1 (vx p - D)) <= es.
