(** Properties C46-C49, C75-C77: input files, output, file utilities. *)
From Coq Require Import ZArith List String Reals Permutation.
From Verif Require Import Base Num NumB64 ModelVec ModelGrid ModelArray ModelAnalytic ModelParser ModelOutput ModelFiles ModelApp
  SpecGrid SpecOutput SpecParser SpecFiles ProofsInterpApi ProofsOutput ProofsParser ProofsFiles ProofsIOCases.
Open Scope Z_scope.
Open Scope string_scope.

(** *** C46 *)
Theorem C46_sections : forall T (dbl : string -> option T) int nul kvs old new,
  parse dbl int nul true (YMap kvs) old = Ok new <-> document_says dbl int nul kvs old new.
Proof. exact @parse_iff. Qed.
Print Assumptions C46_sections.
Theorem C46_order : forall T (dbl : string -> option T) int nul bt kvs kvs' fs, NoDup (map fst kvs) -> Permutation kvs kvs' ->
  parse dbl int nul bt (YMap kvs) fs = parse dbl int nul bt (YMap kvs') fs.
Proof. exact @parse_perm. Qed.
Print Assumptions C46_order.
Theorem C46_other_sections : forall T (dbl : string -> option T) int nul bt kvs kvs' fs,
  (forall key, In key ["general"; "grid"; "time"; "velocity"; "levelset"] -> entry kvs key = entry kvs' key) ->
  parse dbl int nul bt (YMap kvs) fs = parse dbl int nul bt (YMap kvs') fs.
Proof. exact @parse_order. Qed.
Print Assumptions C46_other_sections.
Example C46_example : exists new, document_says cdbl cint None doc_case fields0 new /\ if_grid new = Some (mkGI (V3 1 1 1) (V3 2 2 2) (V3 4 4 1)) /\
  NoDup (map fst doc_case).
Proof. exact document_case. Qed.

(** *** C47: exactly three numbers are read; fewer are an out-of-bounds read, more are ignored *)
Theorem C47_long_partial : forall T (dbl : string -> option T) int nul bt fs n gi, grid_says dbl int n gi ->
  parse dbl int nul bt (YMap [("grid", n)]) fs = Ok (mkIF (if_general fs) (Some gi) (if_time fs) (if_vel fs) (if_ls fs)).
Proof. exact @grid_only. Qed.
Print Assumptions C47_long_partial.
Theorem C47_short_cells_refuted : forall T (dbl : string -> option T) int nul bt kvs fs n lo hi vs,
  (forall m, entry kvs "general" = Some m -> exists d, general_says nul m d) ->
  entry kvs "grid" = Some n -> box_says dbl n lo hi -> list_at int ["cells"] n vs -> (List.length vs < 3)%nat ->
  parse dbl int nul bt (YMap kvs) fs = UB OutOfBounds.
Proof. exact @short_cells. Qed.
Print Assumptions C47_short_cells_refuted.
Theorem C47_short_center_refuted : forall T (dbl : string -> option T) int nul fs n vs nm,
  string_at nul ["name"] n nm -> list_at dbl ["center"] n vs -> (List.length vs < 3)%nat ->
  parse dbl int nul true (YMap [("levelset", n)]) fs = UB OutOfBounds.
Proof. exact @short_center. Qed.
Print Assumptions C47_short_center_refuted.
Example C47_example : (exists n gi, grid_says cdbl cint n gi /\ list_at cint ["cells"] n [4; 4; 1; 4]) /\
  exists n vs, box_says cdbl n (V3 1 1 1) (V3 2 2 2) /\ list_at cint ["cells"] n vs /\ (List.length vs < 3)%nat.
Proof. exact cells_case. Qed.

(** *** C48 *)
Theorem C48_print : forall T (NT : Num T) (fmt : T -> string) A ov dim n pad bmin bmax (g : grid T) (show : A -> string) (a : array A),
  built ov dim n pad bmin bmax g -> array_on g a ->
  (forall x, occurs NL (fmt x) = false) -> (forall x, occurs TAB (fmt x) = false) -> (forall x, occurs NL (show x) = false) ->
  exists text ls, print_array fmt ov g show a = Ok text /\ lines_of text ls /\
    Z.of_nat (List.length ls) = vx n * vy n * vz n /\
    forall i j k, interior_cell n (i, j, k) -> exists p x line, node ov g i j k = Ok p /\ aget ov g a i j k = Ok x /\
      nth_error ls (Z.to_nat ((i * vy n + j) * vz n + k)) = Some line /\
      columns line = fmt (vx p) :: fmt (vy p) :: fmt (vz p) :: columns (show x).
Proof. exact @print_ok. Qed.
Print Assumptions C48_print.
Theorem C48_vec3_columns : forall T (fmt : T -> string) (v : vec3 T), (forall x, occurs TAB (fmt x) = false) ->
  columns (show_vec3 fmt v) = [fmt (vx v); fmt (vy v); fmt (vz v)].
Proof. exact @columns_vec3. Qed.
Print Assumptions C48_vec3_columns.
(** a matrix or a vector of n entries leaves an empty last column *)
Theorem C48_vecN_columns : forall T (fmt : T -> string) (l : list T), (forall x, occurs TAB (fmt x) = false) ->
  columns (show_vecN fmt l) = (map fmt l ++ [""])%list.
Proof. exact @columns_fold. Qed.
Print Assumptions C48_vecN_columns.
Theorem C48_mat3_columns : forall T (fmt : T -> string) (m : mat3 T), (forall x, occurs TAB (fmt x) = false) ->
  columns (show_mat3 fmt m) = (map fmt (flat_map (fun r => [mget m r AX; mget m r AY; mget m r AZ]) [AX; AY; AZ]) ++ [""])%list.
Proof. exact @columns_mat3. Qed.
Print Assumptions C48_mat3_columns.
Example C48_example : exists g a, built Trap 2 (V3 2 2 1) 1 qlo qhi g /\ array_on g a /\
  print_array qfmt Trap g qfmt a = Ok (join newline
    [join tab ["n"; "p"; "n"; "n"]; join tab ["n"; "p"; "n"; "n"]; join tab ["p"; "p"; "n"; "n"]; join tab ["p"; "p"; "n"; "n"]; ""]) /\
  (forall x, occurs NL (qfmt x) = false) /\ (forall x, occurs TAB (qfmt x) = false).
Proof. exact print_case. Qed.

(** *** C49 *)
Theorem C49_createDirectory : forall u s name, let r := createDirectory u s name in let p := path_of name in
  (fst r = true <-> fs_get (snd r) p <> None) /\
  (fst r = true -> fs_get s p = None -> fs_get (snd r) p = Some FDir) /\
  (fst r = true -> createDirectory u (snd r) name = (true, snd r)) /\
  (fst r = false -> exists q c, on_the_way q p /\ fs_get s q = Some (FFile c)) /\
  (forall q, fs_get s q <> None -> fs_get (snd r) q = fs_get s q) /\
  (forall q, fs_get (snd r) q <> fs_get s q -> fs_get (snd r) q = Some FDir /\ on_the_way q p).
Proof. exact mkdir_ok. Qed.
Print Assumptions C49_createDirectory.
Theorem C49_write : forall u s name text, path_of name <> [] ->
  fs_get s (removelast (path_of name)) = Some FDir -> fs_get s (path_of name) <> Some FDir ->
  let s' := fu_write u s name text in fs_get s' (path_of name) = Some (FFile text) /\ fileExists u s' name = true /\
  forall q, q <> path_of name -> fs_get s' q = fs_get s q.
Proof. exact write_ok. Qed.
Print Assumptions C49_write.
Theorem C49_removeFile : forall u s name, let r := removeFile u s name in let p := path_of name in
  (fst r = true -> fs_get s p <> None /\ fileExists u (snd r) name = false) /\ (fst r = false -> snd r = s) /\
  (forall q, q <> p -> fs_get (snd r) q = fs_get s q) /\
  (forall c, fs_get s p = Some (FFile c) -> fst r = true) /\ (fs_get s p = None -> fst r = false).
Proof. exact remove_ok. Qed.
Print Assumptions C49_removeFile.
Theorem C49_removeFile_directory : forall u s name, let p := path_of name in p <> [] -> fs_get s p = Some FDir ->
  (fst (removeFile u s name) = true <-> forall q, q <> [] -> removelast q = p -> fs_get s q = None).
Proof. exact remove_dir. Qed.
Print Assumptions C49_removeFile_directory.
Theorem C49_tree : forall os u s, is_tree s -> is_tree (snd (history os u s)).
Proof. exact tree_history. Qed.
Print Assumptions C49_tree.
Example C49_example : history [MkDir "out/run"; Write "out/run/velocity" "1"; Exists "out//run/velocity"; Remove "out"; Remove "out/run/velocity"; Exists "out/run/velocity"] fu_new []
    = ([true; true; true; false; true; false], [(["out"; "run"], FDir); (["out"], FDir)]) /\ is_tree [].
Proof. exact history_case. Qed.

(** *** C75 *)
Theorem C75_release_exit : forall T (dbl : string -> option T) int nul kvs fs fs',
  parse dbl int nul true (YMap kvs) fs = Ok fs' -> entry kvs "levelset" <> None -> parse dbl int nul false (YMap kvs) fs = Exit 0.
Proof. exact @release_levelset. Qed.
Print Assumptions C75_release_exit.
Theorem C75_release_other : forall T (dbl : string -> option T) int nul kvs fs,
  entry kvs "levelset" = None -> parse dbl int nul false (YMap kvs) fs = parse dbl int nul true (YMap kvs) fs.
Proof. exact @release_other. Qed.
Print Assumptions C75_release_other.
Theorem C75_release_application : forall T (dbl : string -> option T) int nul (NT : Num T) (TT : Trans T) fuel ov fmt file kvs fs' disk,
  parse dbl int nul true (YMap kvs) fields0 = Ok fs' -> entry kvs "levelset" <> None ->
  app_main fuel ov false dbl int nul fmt (Some file) (Some (YMap kvs)) disk = Some (Exit 0).
Proof. exact @release_main. Qed.
Print Assumptions C75_release_application.
Example C75_example : exists new, document_says cdbl cint None doc_case fields0 new /\ entry doc_case "levelset" <> None.
Proof. exact release_case. Qed.

(** *** C76 *)
Theorem C76_root_ignored : forall os u u' s, history os u s = history os u' s.
Proof. exact history_root. Qed.
Print Assumptions C76_root_ignored.
Theorem C76_root_stored : forall u r, getRootDirectory (setRootDirectory u r) = r.
Proof. reflexivity. Qed.
Print Assumptions C76_root_stored.
Example C76_example : getRootDirectory (setRootDirectory fu_new "a/") = "a/" /\ history [Write "velocity" "1"] (setRootDirectory fu_new "a/") [(["a"], FDir)]
  = ([true], [(["velocity"], FFile "1"); (["a"], FDir)]).
Proof. split; reflexivity. Qed.

(** *** C77 *)
Theorem C77_write_lost : forall u s name text,
  fs_get s (removelast (path_of name)) <> Some FDir \/ fs_get s (path_of name) = Some FDir -> fu_write u s name text = s.
Proof. exact write_lost. Qed.
Print Assumptions C77_write_lost.
Theorem C77_createDirectory_file : forall u s name c, fs_get s (path_of name) = Some (FFile c) -> createDirectory u s name = (true, s).
Proof. exact mkdir_file. Qed.
Print Assumptions C77_createDirectory_file.
Example C77_example : fs_get [] (removelast (path_of "out/velocity")) <> Some FDir /\ fs_get [(["out"], FFile "x")] (path_of "out/") = Some (FFile "x").
Proof. split; [discriminate|reflexivity]. Qed.
