(** Concrete cases for the properties of the reference loops and time steps. *)
From Coq Require Import ZArith List Permutation Reals Lra Lia Bool String.
From Coquelicot Require Import Derive_2d.
From Verif Require Import Base Num NumB64 ModelVec ModelRefMath ModelRefMem ModelRef SpecRef SpecRefPar SpecRefRun ProofsBase ProofsRefMem ProofsRefPar ProofsRefRun
  ProofsRefUpd ProofsRefMix ProofsRefSearch ProofsRefStep ProofsRefMain ProofsRefReal ProofsRefExact ProofsRefFlows ProofsRefTrace ProofsRefApi.
Open Scope Z_scope.

(** a memory with given contents *)
Definition mem_of (nx ny : Z) (x y : Z -> R) (f : fields R) (xa ya : Z -> Z -> R) (tr cx cy : Z) : mem R := fun l =>
  match l with (a, i, j) =>
    let put v := if in_rng ny 0 nx i j then Some v else None in
    match a with
    | AX1 => if ((0 <=? i) && (i <? nx) && (j =? 0))%bool then Some (D (x i)) else None
    | AY1 => if ((0 <=? i) && (i <? ny) && (j =? 0))%bool then Some (D (y i)) else None
    | Xadv => put (D (xa i j)) | Yadv => put (D (ya i j))
    | Tracker => put (U tr) | Cellx => put (U cx) | Celly => put (U cy)
    | Phi | MPhi => put (D (SpecRefRun.f_phi f i j)) | Psix | MPsix => put (D (f_x f i j))
    | Psiy | MPsiy => put (D (f_y f i j)) | Psixy | MPsixy => put (D (f_xy f i j))
    | _ => None
    end end.
Lemma mem_of_ok nx ny x y f xa ya tr cx cy : let m := mem_of nx ny x y f xa ya tr cx cy in
  nodes_at nx ny x y m /\ contains nx ny f m /\ holds Xadv ny nx xa m /\ holds Yadv ny nx ya m /\
  holdsu Tracker ny nx (fun _ _ => tr) m /\ holdsu Cellx ny nx (fun _ _ => cx) m /\ holdsu Celly ny nx (fun _ _ => cy) m.
Proof.
  cbv zeta. split; [split; intros i Hi; unfold mem_of|].
  - replace (0 <=? i) with true by lia. replace (i <? nx) with true by lia. reflexivity.
  - replace (0 <=? i) with true by lia. replace (i <? ny) with true by lia. reflexivity.
  - unfold contains, holds, holdsu. repeat apply conj; intros i j Hi Hj; unfold mem_of; rewrite in_rng_in by lia; reflexivity.
Qed.
Lemma holds_present a r c (f : Z -> Z -> R) m : holds a r c f m -> present a r c m.
Proof. intros H i j Hi Hj. rewrite H by assumption. discriminate. Qed.
Lemma holdsu_present a r c f (m : mem R) : holdsu a r c f m -> present a r c m.
Proof. intros H i j Hi Hj. rewrite H by assumption. discriminate. Qed.

Definition case_s : settings R := mkSet 0%R 1%R 5 0%R 1%R 4 (1 / 8)%R 1%R 1%R 1 2 "SuperConsistent" "RK3".
Definition case_t : settings R := mkSet (-1)%R 1%R 5 (-1)%R 2%R 4 (1 / 8)%R 1%R 1%R 1 2 "Heuns" "E".
Lemma case_proper : proper case_s /\ unit_square case_s /\ proper case_t /\ (s_xlim1 case_t < 0 < s_xlim2 case_t)%R /\ (s_ylim1 case_t < 0 < s_ylim2 case_t)%R.
Proof. unfold proper, unit_square. cbn. repeat split; lia || lra. Qed.
Lemma case_state (s : settings R) f : exists m, nodes_at (s_nx s) (s_ny s) (node_x s) (node_y s) m /\ contains (s_nx s) (s_ny s) f m.
Proof.
  destruct (mem_of_ok (s_nx s) (s_ny s) (node_x s) (node_y s) f (fun _ _ => 0%R) (fun _ _ => 0%R) 0 0 0) as (H1 & H2 & _). eexists. split; [exact H1|exact H2].
Qed.
(** a constant velocity *)
Definition case_flow (u v : R) : flow R := mkFlow (fun _ _ _ _ => u) (fun _ _ _ _ => v) (fun _ _ _ _ => 0%R) (fun _ _ _ _ => 0%R) (fun _ _ _ _ => 0%R) (fun _ _ _ _ => 0%R).
Lemma case_flow_ok u v Tp : velocity_is (case_flow u v) Tp (fun _ _ _ => u) (fun _ _ _ => v) /\ true_gradients (case_flow u v) Tp.
Proof.
  split; [intros x y q; split; reflexivity|]. intros x y q. cbn. split.
  - intros eps. exists (mkposreal 1 Rlt_0_1). intros a b _ _. rewrite !Rmult_0_l, Rplus_0_r, Rminus_0_r, Rminus_eq_0, Rabs_R0.
    apply Rmult_le_pos; [left; apply cond_pos|]. eapply Rle_trans; [apply Rabs_pos|apply Rmax_l].
  - intros eps. exists (mkposreal 1 Rlt_0_1). intros a b _ _. rewrite !Rmult_0_l, Rplus_0_r, Rminus_0_r, Rminus_eq_0, Rabs_R0.
    apply Rmult_le_pos; [left; apply cond_pos|]. eapply Rle_trans; [apply Rabs_pos|apply Rmax_l].
Qed.
Lemma case_main : (IZR 8 <= s_Tfinal case_s / s_dt case_s < IZR 8 + 1)%R /\ print_every case_s 8 = 2.
Proof. cbn. split; [lra|reflexivity]. Qed.

(** two threads, the second half of the nodes first *)
Definition case_teams : list (list (Z * Z)) := [skipn 7 (nodes 4 0 5); firstn 7 (nodes 4 0 5)].
Lemma case_team : team_of (nodes 4 0 5) case_teams.
Proof. unfold team_of, case_teams. cbn [concat]. rewrite app_nil_r. eapply Permutation_trans; [apply Permutation_app_comm|]. rewrite firstn_skipn. apply Permutation_refl. Qed.
Lemma case_loops (F : flow R) rk3 t dt Tp : exists (m m1 m2 m3 : mem R),
  runs (advection_point_MPI F rk3 t dt Tp 4 0 5) m = Ok m1 /\
  runs (find_advection_point_location_MPI 5 4 0%R 1%R 0%R 1%R 0 5) m = Ok m2 /\
  runs (update_levelset_data F "Heuns" rk3 t dt Tp 4 0 5) m = Ok m3.
Proof.
  destruct (mem_of_ok 5 4 (node_x case_s) (node_y case_s) (initial (node_x case_s) (node_y case_s)) (fun _ _ => (1 / 3)%R) (fun _ _ => (2 / 3)%R) 1 2 1)
    as (H1 & H2 & H3 & H4 & H5 & H6 & H7). set (m := mem_of _ _ _ _ _ _ _ _ _ _) in *. clearbody m. exists m.
  destruct (adv_loop F rk3 t dt Tp 5 4 _ _ 4 0 5 m H1) as (m1 & R1 & _); [eapply holds_present; eassumption|eapply holds_present; eassumption|lia|lia|lia|].
  destruct (find_loop 5 4 0%R 1%R 0%R 1%R _ _ _ _ 0 5 m ltac:(lia) ltac:(lia) H1 H3 H4) as (m2 & R2 & _); try (eapply holdsu_present; eassumption); try lia.
  destruct H2 as (A1 & A2 & A3 & A4 & A5 & A6 & A7 & A8).
  destruct (update_loop F "Heuns" rk3 t dt Tp 5 4 _ _ _ _ _ _ _ _ _ _ _ _ _ _ _ 0 5 m ltac:(lia) ltac:(lia) H1 H3 H4 H5 H6 H7 A1 A2 A3 A4 A5 A6 A7 A8) as (m3 & R3 & _); try lia.
  exists m1, m2, m3. auto.
Qed.
Lemma case_search : exists m, nodes_at 5 4 (node_x case_s) (node_y case_s) m /\ holds Xadv 4 5 (fun _ j => IZR j - 1)%R m /\ holds Yadv 4 5 (fun i _ => IZR i - 1)%R m /\
  present Tracker 4 5 m /\ holdsu Cellx 4 5 (fun _ _ => 0) m /\ holdsu Celly 4 5 (fun _ _ => 0) m /\
  sorted_nodes 5 (node_x case_s) 0 1 /\ sorted_nodes 4 (node_y case_s) 0 1 /\ (1 <= IZR 3 - 1)%R.
Proof.
  destruct (mem_of_ok 5 4 (node_x case_s) (node_y case_s) (initial (node_x case_s) (node_y case_s)) (fun _ j => IZR j - 1)%R (fun i _ => IZR i - 1)%R 0 0 0)
    as (H1 & H2 & H3 & H4 & H5 & H6 & H7). eexists.
  split; [exact H1|]. split; [exact H3|]. split; [exact H4|]. split; [eapply holdsu_present; exact H5|]. split; [exact H6|]. split; [exact H7|].
  destruct case_proper as (P & _). split; [exact (sorted_x case_s P)|]. split; [exact (sorted_y case_s P)|]. lra.
Qed.
Lemma case_mixed : exists m, let X := even_nodes 0%R (1 / 4)%R in let Y := even_nodes 0%R (1 / 3)%R in
  holds Psix 4 5 (fun k l => exp (X l) + 1 * Y k + 2 * 2 * X l * Y k + 3 * Y k ^ 2)%R m /\
  holds Psiy 4 5 (fun k l => cos (Y k) + 1 * X l + 2 * X l ^ 2 + 2 * 3 * X l * Y k)%R m /\ present Psixy 4 5 m.
Proof.
  set (X := even_nodes 0%R (1 / 4)%R). set (Y := even_nodes 0%R (1 / 3)%R).
  destruct (mem_of_ok 5 4 X Y (mkFields (fun _ _ => 0%R) (fun k l => exp (X l) + 1 * Y k + 2 * 2 * X l * Y k + 3 * Y k ^ 2)%R
     (fun k l => cos (Y k) + 1 * X l + 2 * X l ^ 2 + 2 * 3 * X l * Y k)%R (fun _ _ => 0%R)) (fun _ _ => 0%R) (fun _ _ => 0%R) 0 0 0)
    as (_ & (_ & H2 & H3 & H4 & _) & _). eexists. split; [exact H2|]. split; [exact H3|]. eapply holds_present. exact H4.
Qed.
Lemma case_trace : exists m, nodes_at 5 4 (node_x case_s) (node_y case_s) m /\ holds Xadv 4 5 (fun _ _ => 0%R) m /\ holds Yadv 4 5 (fun _ _ => 0%R) m.
Proof.
  destruct (mem_of_ok 5 4 (node_x case_s) (node_y case_s) (initial (node_x case_s) (node_y case_s)) (fun _ _ => 0%R) (fun _ _ => 0%R) 0 0 0)
    as (H1 & H2 & H3 & H4 & _). eexists. split; [exact H1|]. split; [exact H3|]. exact H4.
Qed.
Lemma case_static : static_chunks (nodes 4 0 5) [firstn 7 (nodes 4 0 5); skipn 7 (nodes 4 0 5)] /\ two_busy [firstn 7 (nodes 4 0 5); skipn 7 (nodes 4 0 5)].
Proof.
  split; [unfold static_chunks; cbn [concat]; rewrite app_nil_r; apply firstn_skipn|].
  exists [], (firstn 7 (nodes 4 0 5)), [], (skipn 7 (nodes 4 0 5)), []. split; [reflexivity|]. split; discriminate.
Qed.
