(** Concrete cases for the input and output properties. *)
From Coq Require Import ZArith List String Ascii QArith.
From Verif Require Import Base Num NumB64 ModelVec ModelGrid ModelArray ModelAnalytic ModelParser ModelOutput ModelFiles ModelApp
  SpecGrid SpecOutput SpecParser SpecFiles ProofsOutput ProofsParser ProofsFiles ProofsGridProps ProofsArray.
Import ListNotations.
Open Scope Z_scope.
Open Scope string_scope.

Lemma columns_mat3 {T} (fmt : T -> string) (m : mat3 T) : (forall x, occurs TAB (fmt x) = false) ->
  columns (show_mat3 fmt m) = (map fmt (flat_map (fun r => [mget m r AX; mget m r AY; mget m r AZ]) [AX; AY; AZ]) ++ [""])%list.
Proof. intros H. unfold show_mat3. rewrite columns_fold by exact H. destruct m; reflexivity. Qed.

(** a small conversion: one-digit numbers *)
Definition cint (s : string) : option Z :=
  match s with "1" => Some 1 | "2" => Some 2 | "4" => Some 4 | _ => None end.
Definition cdbl (s : string) : option Z := cint s.
Definition sc (s : string) := YScalar s.
Definition grid_case (cells : list yaml) : yaml := YMap [("cells", YSeq cells);
  ("box", YMap [("x_min", sc "1"); ("x_max", sc "2"); ("y_min", sc "1"); ("y_max", sc "2"); ("z_min", sc "1"); ("z_max", sc "2")])].
Definition doc_case : list (string * yaml) := [
  ("levelset", YMap [("name", sc "CIRCLE"); ("center", YSeq [sc "1"; sc "2"; sc "1"]); ("radius", sc "1"); ("gradient", YMap [("scheme", sc "CENTRAL")])]);
  ("comment", YNull);
  ("grid", grid_case [sc "4"; sc "4"; sc "1"]);
  ("time", YMap [("start", sc "1"); ("end", sc "2"); ("dt", sc "1"); ("constant_dt", sc "NO")])].

Lemma document_case : exists new, document_says cdbl cint None doc_case fields0 new /\ if_grid new = Some (mkGI (V3 1 1 1) (V3 2 2 2) (V3 4 4 1)) /\
  NoDup (map fst doc_case).
Proof.
  eexists. split; [apply parse_iff; vm_compute; reflexivity|]. split; [reflexivity|].
  cbn. repeat constructor; cbn; intuition discriminate.
Qed.
Lemma release_case : exists new, document_says cdbl cint None doc_case fields0 new /\ entry doc_case "levelset" <> None.
Proof. eexists. split; [apply parse_iff; vm_compute; reflexivity|]. discriminate. Qed.
Lemma cells_case : (exists n gi, grid_says cdbl cint n gi /\ list_at cint ["cells"] n [4; 4; 1; 4]) /\
  exists n vs, box_says cdbl n (V3 1 1 1) (V3 2 2 2) /\ list_at cint ["cells"] n vs /\ (List.length vs < 3)%nat.
Proof.
  split.
  - exists (grid_case [sc "4"; sc "4"; sc "1"; sc "4"]), (mkGI (V3 1 1 1) (V3 2 2 2) (V3 4 4 1)). split.
    + apply grid_iff. reflexivity.
    + apply read_list1. reflexivity.
  - exists (grid_case [sc "4"; sc "4"]), [4; 4]. split; [|split; [apply read_list1; reflexivity|cbn; repeat constructor]].
    unfold box_says. repeat split; apply read_scalar2; reflexivity.
Qed.

(** printing signs of rationals *)
Definition qfmt (x : Q) : string := if Qle_bool x (Qmake 0 1) then "n" else "p".
Definition qlo : vec3 Q := V3 (Qmake (-2) 1) (Qmake 1 1) (Qmake 1 1).
Definition qhi : vec3 Q := V3 (Qmake 2 1) (Qmake 2 1) (Qmake 2 1).
Fixpoint join (sep : string) (l : list string) : string := match l with [] => "" | [x] => x | x :: r => x ++ sep ++ join sep r end.
Lemma print_case : exists g a, built Trap 2 (V3 2 2 1) 1 qlo qhi g /\ array_on g a /\
  print_array qfmt Trap g qfmt a = Ok (join newline
    [join tab ["n"; "p"; "n"; "n"]; join tab ["n"; "p"; "n"; "n"]; join tab ["p"; "p"; "n"; "n"]; join tab ["p"; "p"; "n"; "n"]; ""]) /\
  (forall x, occurs NL (qfmt x) = false) /\ (forall x, occurs TAB (qfmt x) = false).
Proof.
  destruct (make_grid Trap 2 (V3 2 2 1) 1 qlo qhi) as [g| | |] eqn:E; try (vm_compute in E; discriminate).
  exists g, (array_ctor g (Qmake 0 1)). split.
  - split; [|split; [right; cbn; unfold INT_MAX; discriminate|exact E]].
    split; [auto with arith|]. split; [discriminate|]. split; [intros []; cbn; discriminate || reflexivity|]. cbn. unfold INT_MAX. discriminate.
  - vm_compute in E. injection E as <-. split; [split; reflexivity|]. split; [vm_compute; reflexivity|].
    split; intros x; unfold qfmt; destruct (Qle_bool x (Qmake 0 1)); reflexivity.
Qed.

Lemma history_case : history [MkDir "out/run"; Write "out/run/velocity" "1"; Exists "out//run/velocity"; Remove "out"; Remove "out/run/velocity"; Exists "out/run/velocity"] fu_new []
    = ([true; true; true; false; true; false], [(["out"; "run"], FDir); (["out"], FDir)]) /\ is_tree [].
Proof. split; [vm_compute; reflexivity|]. intros [|a p] Hp H; [contradiction|]. cbn in H. contradiction. Qed.
