(** The unit tests of the repository pass on the model: evidence that the model is the program. Not claims of MANIFEST.json. *)
From Coq Require Import ZArith List Bool.
From Verif Require Import Base Num NumB64 ModelVec ModelGrid ModelArray ModelInterp ModelTests.
Open Scope Z_scope.

(** tests/hermite-interpolation.cc: the reference values of the test were computed by another program *)
Example hermite_1d_11 : hermite_test 1 11 (dec 717922473960529 19) (V3 (dec 542528257269213 18) (nofZ 0) (nofZ 0)) = Ok true.
Proof. vm_compute. reflexivity. Qed.
Example hermite_1d_21 : hermite_test 1 21 (dec 419183043139219 20) (V3 (dec 133121515337428 18) (nofZ 0) (nofZ 0)) = Ok true.
Proof. vm_compute. reflexivity. Qed.
Example hermite_1d_41 : hermite_test 1 41 (dec 263113371645751 21) (V3 (dec 214701778071460 19) (nofZ 0) (nofZ 0)) = Ok true.
Proof. vm_compute. reflexivity. Qed.
Example hermite_1d_81 : hermite_test 1 81 (dec 144915820757515 22) (V3 (dec 250561543448733 20) (nofZ 0) (nofZ 0)) = Ok true.
Proof. vm_compute. reflexivity. Qed.
Example hermite_2d_11 :
  hermite_test 2 11 (dec 193196907657978 18) (V3 (dec 715246551139715 18) (dec 715246551140005 18) (nofZ 0)) = Ok true.
Proof. vm_compute. reflexivity. Qed.
Example hermite_2d_21 :
  hermite_test 2 21 (dec 112808113414184 19) (V3 (dec 176408187501144 18) (dec 176408187502064 18) (nofZ 0)) = Ok true.
Proof. vm_compute. reflexivity. Qed.

(** tests/grid.cc *)
Example grid_1d : grid_test 1 (V3 (dec (-7) 1) (nofZ 1) (nofZ 1)) (V3 1 INT_MAX INT_MAX) 1 12 (V3 1 0 0) = Ok true.
Proof. vm_compute. reflexivity. Qed.
Example grid_2d : grid_test 2 (V3 (dec (-69) 2) (dec (-69) 2) (nofZ 1)) (V3 1 1 INT_MAX) 13 144 (V3 1 1 0) = Ok true.
Proof. vm_compute. reflexivity. Qed.
Example grid_3d : grid_test 3 (V3 (dec (-69) 2) (dec (-69) 2) (dec (-69) 2)) (V3 1 1 1) 157 1728 (V3 1 1 1) = Ok true.
Proof. vm_compute. reflexivity. Qed.

(** tests/array.cc *)
Example arrays : array_test = Ok true.
Proof. vm_compute. reflexivity. Qed.

(** tests/gradient.cc; in three dimensions with 4 cells per axis instead of 10, derivative 2 instead of 5 *)
Example second_1d : gradient_test false 1 10 = Ok true. Proof. vm_compute. reflexivity. Qed.
Example second_2d : gradient_test false 2 10 = Ok true. Proof. vm_compute. reflexivity. Qed.
Example second_3d : gradient_test false 3 4 = Ok true. Proof. vm_compute. reflexivity. Qed.
Example third_1d : gradient_test true 1 10 = Ok true. Proof. vm_compute. reflexivity. Qed.
Example third_2d : gradient_test true 2 10 = Ok true. Proof. vm_compute. reflexivity. Qed.
Example third_3d : gradient_test true 3 4 = Ok true. Proof. vm_compute. reflexivity. Qed.

(** tests/semi-lagrangian-euler.cc (in three dimensions with 2 cells per axis), tests/euler.cc *)
Example step_1d : step_test 1 10 = Ok true. Proof. vm_compute. reflexivity. Qed.
Example step_2d : step_test 2 10 = Ok true. Proof. vm_compute. reflexivity. Qed.
Example step_3d : step_test 3 2 = Ok true. Proof. vm_compute. reflexivity. Qed.
Example euler_1d : euler_test = Ok true. Proof. vm_compute. reflexivity. Qed.

(** tests/vec3.cc, tests/mat3.cc, tests/file-utils.cc, tests/input-parser.cc, tests/analytical-fields-*.cc *)
Example vectors : vec3_test = Ok true. Proof. vm_compute. reflexivity. Qed.
Example matrices : mat3_test = true. Proof. vm_compute. reflexivity. Qed.
Example files : files_test = Ok true. Proof. vm_compute. reflexivity. Qed.
Example input_fields_and_analytical_fields : fields_test = Ok true. Proof. vm_compute. reflexivity. Qed.
