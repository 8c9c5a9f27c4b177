(** Algebra of the Hermite formulas: every 2-D and 3-D formula is the tensor product of the 1-D one. *)
From Coq Require Import ZArith List Reals Lra.
From Verif Require Import Base Num ModelVec ModelGrid ModelArray ModelInterp.
Open Scope R_scope.

(** 1-D Hermite combination with weights w0..w3: values p0, p1, slopes s0, s1, cell size h. *)
Definition Hw (w : list R) (p0 s0 p1 s1 h : R) : R :=
  match w with
  | [w0; w1; w2; w3] => p0 * w0 + (p0 + s0 * h / 3) * w1 + (p1 - s1 * h / 3) * w2 + p1 * w3
  | _ => 0
  end.

Definition four (w : list R) : Prop := exists a b c d, w = [a; b; c; d].
Lemma four_bern e : four (bern e).  Proof. repeat eexists. Qed.
Lemma four_bern' e : four (bern' e).  Proof. repeat eexists. Qed.

Definition H2w (wx wy : list R) (q00 q10 q01 q11 : nodal R) (dx : vec3 R) : R :=
  Hw wx (Hw wy (q_phi q00) (vy (q_psi q00)) (q_phi q01) (vy (q_psi q01)) (vy dx))
        (Hw wy (vx (q_psi q00)) (q_m0 q00) (vx (q_psi q01)) (q_m0 q01) (vy dx))
        (Hw wy (q_phi q10) (vy (q_psi q10)) (q_phi q11) (vy (q_psi q11)) (vy dx))
        (Hw wy (vx (q_psi q10)) (q_m0 q10) (vx (q_psi q11)) (q_m0 q11) (vy dx))
        (vx dx).

Definition H3w (wx wy wz : list R) (q000 q100 q010 q001 q110 q011 q101 q111 : nodal R) (dx : vec3 R) : R :=
  let F qa qb qc qd := (* value: phi, psi_y, psi_z, m_yz at (y,z) corners 00 10 01 11 *)
    Hw wy (Hw wz (q_phi qa) (vz (q_psi qa)) (q_phi qc) (vz (q_psi qc)) (vz dx))
          (Hw wz (vy (q_psi qa)) (q_m1 qa) (vy (q_psi qc)) (q_m1 qc) (vz dx))
          (Hw wz (q_phi qb) (vz (q_psi qb)) (q_phi qd) (vz (q_psi qd)) (vz dx))
          (Hw wz (vy (q_psi qb)) (q_m1 qb) (vy (q_psi qd)) (q_m1 qd) (vz dx)) (vy dx) in
  let G qa qb qc qd := (* x-slope: psi_x, m_xy, m_zx, m_xyz *)
    Hw wy (Hw wz (vx (q_psi qa)) (q_m2 qa) (vx (q_psi qc)) (q_m2 qc) (vz dx))
          (Hw wz (q_m0 qa) (q_m3 qa) (q_m0 qc) (q_m3 qc) (vz dx))
          (Hw wz (vx (q_psi qb)) (q_m2 qb) (vx (q_psi qd)) (q_m2 qd) (vz dx))
          (Hw wz (q_m0 qb) (q_m3 qb) (q_m0 qd) (q_m3 qd) (vz dx)) (vy dx) in
  Hw wx (F q000 q010 q001 q011) (G q000 q010 q001 q011) (F q100 q110 q101 q111) (G q100 q110 q101 q111) (vx dx).

Lemma wsum4 a b c d (cp : control_points R) :
  a * c_30 cp + b * c_21 cp + c * c_12 cp + d * c_03 cp
  = c_30 cp * a + c_21 cp * b + c_12 cp * c + c_03 cp * d.
Proof. ring. Qed.

Ltac expose := cbn [get_control_points c_30 c_21 c_12 c_03 one_third two_thirds nadd nsub nmul ndiv nofZ NumR
  wsum tens2 tens3 combine flat_map map app fold_left fst snd] in *.

Lemma hermite1_H q0 q1 eta dx odx : hermite1 q0 q1 eta dx odx false =
  mkFields (Hw (bern eta) (q_phi q0) (vx (q_psi q0)) (q_phi q1) (vx (q_psi q1)) dx)
           (V3 (Hw (bern' eta) (q_phi q0) (vx (q_psi q0)) (q_phi q1) (vx (q_psi q1)) dx * odx) 0 0).
Proof.
  unfold hermite1, get_control_points. unfold Hw, bern, bern'.
  cbn [c_30 c_21 c_12 c_03 vset vx vy vz vzero]. unfold one_third.
  cbn [nadd nsub nmul ndiv nofZ NumR]. f_equal; [field|]. f_equal. field.
Qed.

Lemma wsum_tens2 wx wy q00 q10 q01 q11 dx : four wx -> four wy ->
  wsum (tens2 wx wy) (control_points_2d q00 q10 q01 q11 dx false) = H2w wx wy q00 q10 q01 q11 dx.
Proof.
  intros (x0 & x1 & x2 & x3 & ->) (y0 & y1 & y2 & y3 & ->).
  unfold H2w, Hw, control_points_2d, get_control_points, one_third.
  destruct q00 as [p00 [sx00 sy00 sz00] a00 b00 c00 d00], q10 as [p10 [sx10 sy10 sz10] a10 b10 c10 d10],
           q01 as [p01 [sx01 sy01 sz01] a01 b01 c01 d01], q11 as [p11 [sx11 sy11 sz11] a11 b11 c11 d11].
  destruct dx as [hx hy hz].
  cbn [q_phi q_psi q_m0 vx vy vz c_30 c_21 c_12 c_03 wsum tens2 combine flat_map map app fold_left fst snd
       nadd nsub nmul ndiv nofZ NumR].
  unfold wsum, tens2. cbn [combine flat_map map app fold_left fst snd nadd nsub nmul ndiv nofZ NumR].
  field.
Qed.

Lemma wsum_tens3 wx wy wz q000 q100 q010 q001 q110 q011 q101 q111 dx : four wx -> four wy -> four wz ->
  wsum (tens3 wx wy wz) (control_points_3d q000 q100 q010 q001 q110 q011 q101 q111 dx false)
  = H3w wx wy wz q000 q100 q010 q001 q110 q011 q101 q111 dx.
Proof.
  intros (x0 & x1 & x2 & x3 & ->) (y0 & y1 & y2 & y3 & ->) (z0 & z1 & z2 & z3 & ->).
  unfold H3w, Hw, control_points_3d, get_control_points, one_third.
  destruct q000 as [p000 [sx000 sy000 sz000] a000 b000 c000 d000].
  destruct q100 as [p100 [sx100 sy100 sz100] a100 b100 c100 d100].
  destruct q010 as [p010 [sx010 sy010 sz010] a010 b010 c010 d010].
  destruct q001 as [p001 [sx001 sy001 sz001] a001 b001 c001 d001].
  destruct q110 as [p110 [sx110 sy110 sz110] a110 b110 c110 d110].
  destruct q011 as [p011 [sx011 sy011 sz011] a011 b011 c011 d011].
  destruct q101 as [p101 [sx101 sy101 sz101] a101 b101 c101 d101].
  destruct q111 as [p111 [sx111 sy111 sz111] a111 b111 c111 d111].
  destruct dx as [hx hy hz].
  cbn [q_phi q_psi q_m0 q_m1 q_m2 q_m3 vx vy vz c_30 c_21 c_12 c_03].
  unfold wsum, tens3. cbn [combine flat_map map app fold_left fst snd nadd nsub nmul ndiv nofZ NumR].
  replace (1 / 3) with (/ 3) by lra. unfold Rdiv.
  set (t := / 3).
  ring.
Qed.
