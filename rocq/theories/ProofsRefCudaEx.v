(** Concrete device memories for the theorems about the CUDA program. *)
From Coq Require Import ZArith List Bool Lia String Reals Lra.
From Verif Require Import Base Num NumB64 ModelVec ModelRefMath ModelRefMem ModelRef ModelRefCuda SpecRef SpecRefPar SpecRefRun SpecRefCuda
  ProofsBase ProofsRefMem ProofsRefRun ProofsRefMain ProofsRefReal ProofsRefRunCases ProofsRefFlows ProofsRefKernel ProofsRefCudaRun ProofsRefCudaMain ProofsRefCudaReal ProofsRefCudaCases.
Open Scope Z_scope.

Definition flat_of (nx : Z) (m : mem R) : mem R := fun l => match l with (a, k, z) =>
  match a with AX1 | AY1 => m (a, k, z) | _ => m (a, k / nx, k mod nx) end end.
Lemma flat_rows nx m a i j : 0 <= j < nx -> a <> AX1 -> a <> AY1 -> rows_of nx (flat_of nx m) (a, i, j) = m (a, i, j).
Proof.
  intros Hj H1 H2. unfold rows_of, flat_of. rewrite Z.div_add_l by lia. rewrite (Z.div_small j) by lia. rewrite Z.add_0_r.
  rewrite (Z.add_comm (i * nx)), Z.mod_add, Z.mod_small by lia. destruct a; try reflexivity; contradiction.
Qed.
Lemma flat_nodes nx ny x y m : nodes_at nx ny x y m -> nodes_at nx ny x y (flat_of nx m).
Proof. intros H. exact H. Qed.
Lemma flat_holds nx ny a f m : a <> AX1 -> a <> AY1 -> holds a ny nx f m -> holds a ny nx f (rows_of nx (flat_of nx m)).
Proof. intros H1 H2 H i j Hi Hj. rewrite flat_rows by (lia || assumption). apply H; assumption. Qed.
Lemma flat_holdsu nx ny a f m : a <> AX1 -> a <> AY1 -> holdsu a ny nx f m -> holdsu a ny nx f (rows_of nx (flat_of nx m)).
Proof. intros H1 H2 H i j Hi Hj. rewrite flat_rows by (lia || assumption). apply H; assumption. Qed.
Lemma flat_present nx ny a m : a <> AX1 -> a <> AY1 -> present a ny nx m -> present a ny nx (rows_of nx (flat_of nx m)).
Proof. intros H1 H2 H i j Hi Hj. rewrite flat_rows by (lia || assumption). apply H; assumption. Qed.

Lemma flat_search : exists m, nodes_at 5 4 (node_x case_s) (node_y case_s) m /\
  holds Xadv 4 5 (fun _ j => IZR j - 1)%R (rows_of 5 m) /\ holds Yadv 4 5 (fun i _ => IZR i - 1)%R (rows_of 5 m) /\
  present Tracker 4 5 (rows_of 5 m) /\ present Cellx 4 5 (rows_of 5 m) /\ present Celly 4 5 (rows_of 5 m) /\
  sorted_nodes 5 (node_x case_s) 0 1 /\ sorted_nodes 4 (node_y case_s) 0 1 /\ tiles 1 5 4 /\ indexable 5 4.
Proof.
  destruct case_search as (m & H1 & H2 & H3 & H4 & H5 & H6 & H7 & H8 & _). exists (flat_of 5 m).
  split; [apply flat_nodes; exact H1|]. split; [apply flat_holds; [discriminate..|exact H2]|]. split; [apply flat_holds; [discriminate..|exact H3]|].
  split; [apply flat_present; [discriminate..|exact H4]|].
  split; [eapply holdsu_present; apply flat_holdsu; [discriminate..|exact H5]|]. split; [eapply holdsu_present; apply flat_holdsu; [discriminate..|exact H6]|].
  split; [exact H7|]. split; [exact H8|]. unfold tiles, indexable. repeat split; try lia; [exists 5|exists 4]; reflexivity.
Qed.
Lemma flat_mixed : exists m, let X := even_nodes 0%R (1 / 4)%R in let Y := even_nodes 0%R (1 / 3)%R in
  holds Psix 4 5 (fun k l => exp (X l) + 1 * Y k + 2 * 2 * X l * Y k + 3 * Y k ^ 2)%R (rows_of 5 m) /\
  holds Psiy 4 5 (fun k l => cos (Y k) + 1 * X l + 2 * X l ^ 2 + 2 * 3 * X l * Y k)%R (rows_of 5 m) /\ present Psixy 4 5 (rows_of 5 m).
Proof.
  destruct case_mixed as (m & H1 & H2 & H3). cbv zeta in *. exists (flat_of 5 m).
  split; [apply flat_holds; [discriminate..|exact H1]|]. split; [apply flat_holds; [discriminate..|exact H2]|]. apply flat_present; [discriminate..|exact H3].
Qed.
Lemma flat_wrong : exists m, holds Psix 4 5 (fun _ l => 2 * even_nodes 0%R (1 / 4)%R l)%R (rows_of 5 m) /\
  holds Psiy 4 5 (fun _ _ => 0%R) (rows_of 5 m) /\ present Psixy 4 5 (rows_of 5 m).
Proof.
  destruct (mem_of_ok 5 4 (fun _ => 0%R) (fun _ => 0%R) (mkFields (fun _ _ => 0%R) (fun _ l => 2 * even_nodes 0%R (1 / 4)%R l)%R
     (fun _ _ => 0%R) (fun _ _ => 0%R)) (fun _ _ => 0%R) (fun _ _ => 0%R) 0 0 0) as (_ & (_ & H2 & H3 & H4 & _) & _).
  exists (flat_of 5 (mem_of 5 4 (fun _ => 0%R) (fun _ => 0%R) (mkFields (fun _ _ => 0%R) (fun _ l => 2 * even_nodes 0%R (1 / 4)%R l)%R
     (fun _ _ => 0%R) (fun _ _ => 0%R)) (fun _ _ => 0%R) (fun _ _ => 0%R) 0 0 0)).
  split; [apply flat_holds; [discriminate..|exact H2]|]. split; [apply flat_holds; [discriminate..|exact H3]|].
  apply flat_present; [discriminate..|]. eapply holds_present. exact H4.
Qed.
Lemma flat_device (s : settings R) f : exists m, nodes_at (s_nx s) (s_ny s) (node_x s) (node_y s) m /\ device_holds (s_nx s) (s_ny s) f m.
Proof.
  destruct (case_state s f) as (m & H1 & H2). exists (flat_of (s_nx s) m). split; [apply flat_nodes; exact H1|].
  destruct H2 as (A1 & A2 & A3 & A4 & A5 & A6 & A7 & _). unfold device_holds. cbv zeta.
  repeat apply conj; apply flat_holds; solve [discriminate|assumption].
Qed.
Lemma round_mem : exists m, nodes_at 50 50 (node_x round_case) (node_y round_case) m /\ m (AX1, 50, 0) = None.
Proof.
  exists (fun l : loc => match l with (a, k, z) => if ((0 <=? k) && (k <? 50))%bool then
     match a with AX1 => Some (D (node_x round_case k)) | AY1 => Some (D (node_y round_case k)) | _ => None end else None end).
  split; [|reflexivity]. split; intros i Hi; rewrite (proj2 (Z.leb_le 0 i)), (proj2 (Z.ltb_lt i 50)) by lia; reflexivity.
Qed.
Lemma location_inside a n (x : Z -> R) x1 x2 v k m : 2 <= n < 4294967296 -> sorted_nodes n x x1 x2 -> inside x1 x2 v ->
  (forall i, 0 <= i < n -> m (a, i, 0) = Some (D (x i))) -> run (locationAlgo a v n k) m = run (k (locate (map x (range 0 n)) v)) m.
Proof. intros N S V H. apply run_location; [lia| |exact H]. eapply lb_inside; eassumption. Qed.
Lemma location_first {T} {NT : Num T} a (v : T) n (x : Z -> T) k m : 0 < n -> (x 0%Z <? v)%num = false -> m (a, 0, 0) = Some (D (x 0%Z)) ->
  run (locationAlgo a v n k) m = run (k 0) m /\ locate (map x (range 0 n)) v = 4294967295.
Proof.
  intros Hn E H. split; [apply run_location_first with (x := x); assumption|].
  unfold locate, range. rewrite Z.sub_0_r. destruct (Z.to_nat n) as [|q] eqn:Eq; [lia|]. cbn [seq map lower_bound]. change (0 + Z.of_nat 0) with 0. rewrite E. reflexivity.
Qed.
Lemma one_more_tile : launch 16 50 50 <> [] /\ ~ (16 | 50).
Proof. split; [vm_compute; discriminate|]. intros [q Hq]. lia. Qed.
Lemma runs_interleaved (ps : list (prog R)) : forall qs m, Forall (fun p => p = Ret) qs -> interleaved (qs ++ ps) m (runs ps m).
Proof.
  induction ps as [|p ps IH]; intros qs m Hq; unfold runs; cbn [forM].
  - constructor. rewrite app_nil_r. exact Hq.
  - destruct (run_cases p m) as [[m1 H]|[e H]]; rewrite H; cbn [bind].
    + eapply reach_run; [exact H|]. specialize (IH (qs ++ [Ret]) m1). rewrite <- app_assoc in IH. apply IH. apply Forall_app. split; [exact Hq|repeat constructor].
    + apply fail_run. exact H.
Qed.
Lemma kernel_case (F : flow R) : exists k m m', In k (step_kernels F case_s 1 0) /\ runs k m = Ok m' /\ indexable (s_nx case_s) (s_ny case_s).
Proof.
  destruct flat_search as (m & H1 & H2 & H3 & H4 & H5 & H6 & H7 & H8 & Ht & Hn).
  exists (map (find_kernel 5 4 0%R 1%R 0%R 1%R) (launch 1 5 4)), m.
  destruct (search_kernel 5 4 1 _ _ 0%R 1%R 0%R 1%R _ _ m (runs (map (find_kernel 5 4 0%R 1%R 0%R 1%R) (launch 1 5 4)) m)
    ltac:(lia) ltac:(lia) Hn Ht H7 H8 H1 H2 H3 H4 H5 H6) as (m' & E & _).
  { apply (runs_interleaved _ [] m). constructor. }
  exists m'. split; [right; left; reflexivity|]. split; [exact E|exact Hn].
Qed.
