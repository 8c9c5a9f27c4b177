(** The threads of the CUDA kernels run alone. *)
From Coq Require Import ZArith List Permutation Bool Lia String.
From Verif Require Import Base Num NumB64 ModelVec ModelRefMath ModelRefMem ModelRef ModelRefCuda SpecRefPar SpecRefRun SpecRefCuda
  ProofsBase ProofsRefMem ProofsRefPar ProofsRefRun ProofsRefUpd ProofsRefKernel.
Open Scope Z_scope.

Ltac own_foot := unfold own, at_node, of_arrs, fl; cbn [fst snd existsb arr_eqb orb andb]; rewrite ?Z.eqb_refl; reflexivity.
Ltac touchk := repeat match goal with
  | |- touches _ _ Ret => exact Logic.I
  | |- touches _ _ (Err _) => exact Logic.I
  | |- touches _ _ (rd _ _) => apply touches_rd; [own_foot|intro]
  | |- touches _ _ (rdu _ _) => apply touches_rdu; [own_foot|intro]
  | |- touches _ _ (Wr _ _ _) => apply touches_wr; [own_foot|]
  | |- touches _ _ (let _ := _ in _) => cbv zeta
  | |- touches _ _ (if ?b then _ else _) => destruct b
  | |- touches _ _ (match ?z with Z0 => _ | _ => _ end) => destruct z
  | |- touches _ _ (match ?z with xH => _ | _ => _ end) => destruct z
  end.

Section Touch.
Context {T : Type} {NT : Num T}.
Lemma adv_kernel_touches (F : flow T) nx t dt Tp ij : touches (own nx [Xadv; Yadv] ij) (of_arrs [AX1; AY1]) (adv_kernel F nx t dt Tp ij).
Proof. destruct ij as [i j]. unfold adv_kernel. cbv zeta. touchk. Qed.
Lemma scan_touches W R a (v : T) n left_ : forall location k, (forall i, R (a, i, 0) = true) -> (forall c, touches W R (k c)) ->
  touches W R (scan a v n left_ location k).
Proof.
  induction left_ as [|l IH]; intros location k H Hk; cbn [scan]; (apply touches_rd; [rewrite H; reflexivity|intro x]);
  destruct (_ && _)%bool; auto; exact Logic.I.
Qed.
Lemma location_touches W R a (v : T) n k : (forall i, R (a, i, 0) = true) -> (forall c, touches W R (k c)) -> touches W R (locationAlgo a v n k).
Proof. intros H Hk. apply scan_touches; auto. Qed.
Lemma find_kernel_touches nx ny x1 x2 y1 y2 ij : touches (own nx [Tracker; Cellx; Celly] ij) (of_arrs [AX1; AY1; Xadv; Yadv]) (@find_kernel T NT nx ny x1 x2 y1 y2 ij).
Proof.
  destruct ij as [i j]. unfold find_kernel. cbv zeta. touchk. repeat match goal with |- context [negb ?b] => destruct b; cbn [negb] end; touchk.
  all: try (apply location_touches; [reflexivity|intro]); touchk.
  all: try (apply location_touches; [reflexivity|intro]); touchk.
Qed.
Lemma quad_touches W R a nx c (k : quad T -> prog T) : (forall i, R (a, i, 0) = true) -> (forall x, touches W R (k x)) -> touches W R (rdquad_flat a nx c k).
Proof. intros H Hk. unfold rdquad_flat. repeat (apply touches_rd; [rewrite H; reflexivity|intro]). apply Hk. Qed.
Lemma update_kernel_touches (F : flow T) nx t dt Tp ij : touches (own nx [Phi; Psix; Psiy] ij)
  (of_arrs [AX1; AY1; Xadv; Yadv; Cellx; Celly; Tracker; MPhi; MPsix; MPsiy; Psixy]) (update_kernel F nx t dt Tp ij).
Proof.
  destruct ij as [i j]. unfold update_kernel. cbv zeta. touchk.
  repeat (apply quad_touches; [reflexivity|intro]). touchk.
Qed.
Lemma copy_kernel_touches nx ij : touches (own nx [MPhi; MPsix; MPsiy] ij) (of_arrs [Phi; Psix; Psiy]) (@copy_kernel T nx ij).
Proof. destruct ij as [i j]. unfold copy_kernel. cbv zeta. repeat (split; [own_foot|try intros v]). exact Logic.I. Qed.
Lemma diff_touches W R a k k' h (c : T -> prog T) : (forall i, R (a, i, 0) = true) -> (forall x, touches W R (c x)) -> touches W R (diff a k k' h c).
Proof. intros H Hk. unfold diff. repeat (apply touches_rd; [rewrite H; reflexivity|intro]). apply Hk. Qed.
Lemma mixed_kernel_touches nx ny dx dy kl : touches (own nx [Psixy] kl) (of_arrs [Psix; Psiy]) (@mixed_kernel T NT nx ny dx dy kl).
Proof.
  destruct kl as [k l]. unfold mixed_kernel. cbv zeta.
  repeat match goal with |- touches _ _ (if ?b then _ else _) => destruct b end;
  repeat (apply diff_touches; [reflexivity|intro]); touchk.
Qed.
Lemma init_kernel_touches {TG : Trig T} nx p px py pxy ij : touches (own nx [p; px; py; pxy] ij) (of_arrs [AX1; AY1]) (@init_kernel T NT TG nx ij p px py pxy).
Proof.
  destruct ij as [i j]. unfold init_kernel. cbv zeta. do 2 (apply touches_rd; [reflexivity|intro]).
  assert (Q : forall a, arr_eqb a a = true) by (intros []; reflexivity).
  repeat (apply touches_wr; [unfold own, at_node, fl; cbn [fst snd existsb]; rewrite Q, !Z.eqb_refl, ?orb_true_r; reflexivity|]). exact Logic.I.
Qed.
End Touch.

Section Alone.
Context {T : Type} {NT : Num T}.
Implicit Types (m : mem T).
Variables (nx ny : Z).
Hypothesis Hn : indexable nx ny.

Lemma at_index i j : 0 <= i < ny -> 0 <= j < nx -> u32 (i * nx + j) = i * nx + j.
Proof. intros. apply u32_small, (index_small nx ny); assumption. Qed.

Lemma adv_kernel_run (F : flow T) t dt Tp x y m i j : nodes_at nx ny x y m -> present Xadv ny nx (rows_of nx m) -> present Yadv ny nx (rows_of nx m) ->
  0 <= i < ny -> 0 <= j < nx ->
  exists m1, run (adv_kernel F nx t dt Tp (i, j)) m = Ok m1 /\
    m1 (Xadv, i * nx + j, 0) = Some (D (fst (back_trace F true (x j) (y i) t dt Tp))) /\
    m1 (Yadv, i * nx + j, 0) = Some (D (snd (back_trace F true (x j) (y i) t dt Tp))).
Proof.
  intros [Hx Hy] Px Py Hi Hj. unfold adv_kernel, fl. cbv zeta. rewrite at_index by assumption.
  destruct (some_of _ (Px i j Hi Hj)) as [v1 V1]. destruct (some_of _ (Py i j Hi Hj)) as [v2 V2]. unfold rows_of in V1, V2.
  rewrite (run_rd _ _ (x j)) by (apply Hx; lia). rewrite (run_rd _ _ (y i)) by (apply Hy; lia). cbv zeta.
  rewrite (run_wr _ _ _ v1) by exact V1. rewrite (run_wr _ _ _ v2) by (look; exact V2).
  unfold back_trace.
  erewrite run_rd by (look; reflexivity). erewrite run_rd by (look; reflexivity).
  erewrite run_wr by (look; reflexivity). erewrite run_wr by (look; reflexivity).
  erewrite run_rd by (look; reflexivity). erewrite run_rd by (look; reflexivity).
  erewrite run_wr by (look; reflexivity). erewrite run_wr by (look; reflexivity).
  cbn [run]. eexists; split; [reflexivity|]. split; look; reflexivity.
Qed.

(** the search *)
Lemma run_scan a v n (x : Z -> T) c k m left_ : forall location, location <= c < n -> c - location <= Z.of_nat left_ ->
  (forall i, location <= i < c -> (x i <? v)%num = true) -> (x c <? v)%num = false ->
  (forall i, location <= i <= c -> m (a, i, 0) = Some (D (x i))) -> run (scan a v n left_ location k) m = run (k c) m.
Proof.
  induction left_ as [|l IH]; intros location Hl Hf Hlt Hc Hm; cbn [scan]; rewrite (run_rd _ _ (x location)) by (apply Hm; lia).
  - replace location with c by lia. rewrite Hc. reflexivity.
  - destruct (Z.eq_dec location c) as [->|Ne]; [rewrite Hc; reflexivity|].
    rewrite Hlt by lia. replace (location <? n) with true by lia. cbn [andb].
    apply IH; try lia; [intros; apply Hlt; lia|exact Hc|intros; apply Hm; lia].
Qed.
Lemma run_scan_past a v n (x : Z -> T) k m left_ : forall location, location <= n -> n - location <= Z.of_nat left_ ->
  (forall i, location <= i < n -> (x i <? v)%num = true) ->
  (forall i, location <= i < n -> m (a, i, 0) = Some (D (x i))) -> m (a, n, 0) = None -> run (scan a v n left_ location k) m = UB OutOfBounds.
Proof.
  induction left_ as [|l IH]; intros location Hl Hf Hlt Hm He; cbn [scan].
  - replace location with n by lia. unfold rd. cbn [run]. rewrite He. reflexivity.
  - destruct (Z.eq_dec location n) as [->|Ne]; [unfold rd; cbn [run]; rewrite He; reflexivity|].
    rewrite (run_rd _ _ (x location)) by (apply Hm; lia).
    rewrite Hlt by lia. replace (location <? n) with true by lia. cbn [andb].
    apply IH; try lia; [intros; apply Hlt; lia|intros; apply Hm; lia|exact He].
Qed.
Lemma lb_spec (x : Z -> T) v n : forall k,
  let c := lower_bound (map x (map (fun i => k + Z.of_nat i) (seq 0 n))) v in
  0 <= c <= Z.of_nat n /\ (forall i, k <= i < k + c -> (x i <? v)%num = true) /\ (c < Z.of_nat n -> (x (k + c)%Z <? v)%num = false).
Proof.
  induction n as [|n IH]; intros k c.
  - subst c. cbn. split; [lia|]. split; intros; lia.
  - subst c. cbn [seq map lower_bound]. replace (map (fun i => k + Z.of_nat i) (seq 1 n)) with (map (fun i => (k + 1) + Z.of_nat i) (seq 0 n))
      by (rewrite <- seq_shift, map_map; apply map_ext; intros; lia).
    specialize (IH (k + 1)). cbv zeta in IH.
    set (c := lower_bound (map x (map (fun i => (k + 1) + Z.of_nat i) (seq 0 n))) v) in *. clearbody c.
    destruct IH as (I1 & I2 & I3). replace (k + Z.of_nat 0) with k by lia.
    destruct (x k <? v)%num eqn:E.
    + split; [lia|]. split.
      * intros i Hi. destruct (Z.eq_dec i k) as [->|]; [assumption|]. apply I2. lia.
      * intros Hc. replace (k + (1 + c)) with (k + 1 + c) by lia. apply I3. lia.
    + split; [lia|]. split; [intros; lia|]. intros _. rewrite Z.add_0_r. exact E.
Qed.
Lemma lb_range_spec (x : Z -> T) v n : 0 <= n -> let c := lower_bound (map x (range 0 n)) v in
  0 <= c <= n /\ (forall i, 0 <= i < c -> (x i <? v)%num = true) /\ (c < n -> (x c <? v)%num = false).
Proof.
  intros N. pose proof (lb_spec x v (Z.to_nat n) 0) as H. cbv zeta in *. rewrite Z2Nat.id in H by lia.
  replace (range 0 n) with (map (fun i => 0 + Z.of_nat i) (seq 0 (Z.to_nat n))); [exact H|].
  unfold range. rewrite Z.sub_0_r. apply map_ext. intros; lia.
Qed.
Lemma run_location a v n (x : Z -> T) k m : 0 <= n < 4294967296 -> 0 < lower_bound (map x (range 0 n)) v < n ->
  (forall i, 0 <= i < n -> m (a, i, 0) = Some (D (x i))) ->
  run (locationAlgo a v n k) m = run (k (locate (map x (range 0 n)) v)) m.
Proof.
  intros N C Hm. pose proof (lb_range_spec x v n ltac:(lia)) as H. cbv zeta in H. unfold locate.
  set (c := lower_bound _ v) in *. clearbody c. destruct H as (H1 & H2 & H3). unfold locationAlgo.
  rewrite (run_scan a v n x c) by (first [lia|assumption|intros; apply Hm; lia|apply H3; lia]).
  replace (c =? 0) with false by lia. rewrite u32_small by lia. reflexivity.
Qed.
Lemma run_location_past a v n (x : Z -> T) k m : 0 <= n -> (forall i, 0 <= i < n -> (x i <? v)%num = true) ->
  (forall i, 0 <= i < n -> m (a, i, 0) = Some (D (x i))) -> m (a, n, 0) = None -> run (locationAlgo a v n k) m = UB OutOfBounds.
Proof. intros. unfold locationAlgo. apply (run_scan_past a v n x); try assumption; lia. Qed.
Lemma run_location_first a v n (x : Z -> T) k m : 0 < n -> (x 0 <? v)%num = false -> m (a, 0, 0) = Some (D (x 0)) ->
  run (locationAlgo a v n k) m = run (k 0) m.
Proof.
  intros N H Hm. unfold locationAlgo. rewrite (run_scan a v n x 0); [reflexivity|lia|lia|intros; lia|exact H|].
  intros i Hi. replace i with 0 by lia. exact Hm.
Qed.

(** what the kernel needs: a node at or above the position on each axis that is searched, none equal to the first *)
Definition searchable x1 x2 y1 y2 (x y : Z -> T) (xa ya : T) : Prop :=
  (((x1 <? xa) && (xa <? x2))%num%bool = true -> 0 < lower_bound (map x (range 0 nx)) xa < nx) /\
  (((y1 <? ya) && (ya <? y2))%num%bool = true -> 0 < lower_bound (map y (range 0 ny)) ya < ny).

Lemma find_kernel_run x1 x2 y1 y2 x y (xa ya : T) m i j : nodes_at nx ny x y m ->
  m (Xadv, i * nx + j, 0) = Some (D xa) -> m (Yadv, i * nx + j, 0) = Some (D ya) ->
  present Tracker ny nx (rows_of nx m) -> present Cellx ny nx (rows_of nx m) -> present Celly ny nx (rows_of nx m) ->
  0 <= i < ny -> 0 <= j < nx -> searchable x1 x2 y1 y2 x y xa ya ->
  let f := found nx ny x1 x2 y1 y2 (map x (range 0 nx)) (map y (range 0 ny)) xa ya in
  exists m1, run (find_kernel nx ny x1 x2 y1 y2 (i, j)) m = Ok m1 /\ m1 (Tracker, i * nx + j, 0) = Some (U (fst f)) /\
    match snd f with
    | Some c => m1 (Cellx, i * nx + j, 0) = Some (U (fst c)) /\ m1 (Celly, i * nx + j, 0) = Some (U (snd c))
    | None => fst f = 4 -> m1 (Cellx, i * nx + j, 0) = m (Cellx, i * nx + j, 0) /\ m1 (Celly, i * nx + j, 0) = m (Celly, i * nx + j, 0)
    end.
Proof.
  intros [Hx Hy] Xa Ya Pt Px Py Hi Hj [Sx Sy] f. destruct Hn as (B1 & B2 & _).
  unfold find_kernel, fl. cbv zeta. rewrite at_index by assumption.
  destruct (some_of _ (Pt i j Hi Hj)) as [v0 V0]. destruct (some_of _ (Px i j Hi Hj)) as [v1 V1]. destruct (some_of _ (Py i j Hi Hj)) as [v2 V2].
  unfold rows_of in V0, V1, V2. rewrite (run_rd _ _ xa) by exact Xa. rewrite (run_rd _ _ ya) by exact Ya. subst f. unfold found. cbv zeta.
  destruct ((x1 <? xa)%num && (xa <? x2)%num)%bool; destruct ((y1 <? ya)%num && (ya <? y2)%num)%bool; cbn [negb];
    rewrite (run_wr _ _ _ v0) by exact V0.
  - rewrite (run_location AX1 xa nx x) by (first [lia|apply Sx; reflexivity|intros; look; apply Hx; lia]).
    rewrite (run_wr _ _ _ v1) by (look; exact V1).
    rewrite (run_location AY1 ya ny y) by (first [lia|apply Sy; reflexivity|intros; look; apply Hy; lia]).
    rewrite (run_wr _ _ _ v2) by (look; exact V2). cbn [run]. eexists; split; [reflexivity|]. cbn [fst snd]. repeat split; look; reflexivity.
  - rewrite (run_location AX1 xa nx x) by (first [lia|apply Sx; reflexivity|intros; look; apply Hx; lia]).
    rewrite (run_wr _ _ _ v1) by (look; exact V1).
    destruct (ya <=? y1)%num; [|destruct (y2 <=? ya)%num];
      rewrite ?(run_wr _ _ _ v2) by (look; exact V2); cbn [run]; (eexists; split; [reflexivity|]); cbn [fst snd]; repeat split; intros; look; first [reflexivity|lia].
  - rewrite (run_location AY1 ya ny y) by (first [lia|apply Sy; reflexivity|intros; look; apply Hy; lia]).
    rewrite (run_wr _ _ _ v2) by (look; exact V2).
    destruct (xa <=? x1)%num; [|destruct (x2 <=? xa)%num];
      rewrite ?(run_wr _ _ _ v1) by (look; exact V1); cbn [run]; (eexists; split; [reflexivity|]); cbn [fst snd]; repeat split; intros; look; first [reflexivity|lia].
  - cbn [run]. eexists; split; [reflexivity|]. cbn [fst snd]. repeat split; intros; look; reflexivity.
Qed.

(** update *)
Lemma run_quad a f cy cx (k : quad T -> prog T) m : holds a ny nx f (rows_of nx m) -> 0 <= cy < ny - 1 -> 0 <= cx < nx - 1 ->
  run (rdquad_flat a nx (u32 (cx + cy * nx)) k) m = run (k (quad_at f cy cx)) m.
Proof.
  intros H Hy Hx. unfold rdquad_flat, quad_at.
  pose proof (index_small nx ny Hn cy cx ltac:(lia) ltac:(lia)). pose proof (index_small nx ny Hn (cy + 1) (cx + 1) ltac:(lia) ltac:(lia)).
  rewrite (u32_small (cx + cy * nx)) by nia. rewrite !u32_small by nia.
  rewrite (run_rd _ _ (f cy cx)) by (rewrite <- (H cy cx) by lia; unfold rows_of; f_equal; f_equal; f_equal; lia).
  rewrite (run_rd _ _ (f cy (cx + 1))) by (rewrite <- (H cy (cx + 1)) by lia; unfold rows_of; f_equal; f_equal; f_equal; lia).
  rewrite (run_rd _ _ (f (cy + 1) cx)) by (rewrite <- (H (cy + 1) cx) by lia; unfold rows_of; f_equal; f_equal; f_equal; lia).
  rewrite (run_rd _ _ (f (cy + 1) (cx + 1))) by (rewrite <- (H (cy + 1) (cx + 1)) by lia; unfold rows_of; f_equal; f_equal; f_equal; lia).
  reflexivity.
Qed.
Lemma update_kernel_run (F : flow T) t dt Tp x y (xa ya : T) (tr cx cy : Z) (f : fields T) m i j :
  3 <= nx -> 3 <= ny -> nodes_at nx ny x y m -> m (Xadv, i * nx + j, 0) = Some (D xa) -> m (Yadv, i * nx + j, 0) = Some (D ya) ->
  m (Tracker, i * nx + j, 0) = Some (U tr) -> m (Cellx, i * nx + j, 0) = Some (U cx) -> m (Celly, i * nx + j, 0) = Some (U cy) ->
  device_holds nx ny f m -> 0 <= cx < nx - 1 -> 0 <= cy < ny - 1 -> 0 <= i < ny -> 0 <= j < nx ->
  let new := updated F "SuperConsistent" true t dt Tp (x 2 - x 1)%num (y 2 - y 1)%num (x cx) (y cy) (x j) (y i) xa ya
      (quad_at (f_phi f) cy cx) (quad_at (f_x f) cy cx) (quad_at (f_y f) cy cx) (quad_at (f_xy f) cy cx)
      tr (f_phi f i j) (f_x f i j) (f_y f i j) (f_xy f i j) in
  exists m1, run (update_kernel F nx t dt Tp (i, j)) m = Ok m1 /\ m1 (Phi, i * nx + j, 0) = Some (D (fst (fst new))) /\
    m1 (Psix, i * nx + j, 0) = Some (D (snd (fst new))) /\ m1 (Psiy, i * nx + j, 0) = Some (D (snd new)).
Proof.
  intros N1 N2 [Hx Hy] Xa Ya Ht Hcx Hcy (Hp & Hpx & Hpy & Hpxy & Mp & Mx & My) Cx Cy Hi Hj new.
  unfold update_kernel, fl. cbv zeta. rewrite at_index by assumption.
  rewrite (run_rd _ _ (x 2)) by (apply Hx; lia). rewrite (run_rd _ _ (x 1)) by (apply Hx; lia).
  rewrite (run_rd _ _ (y 2)) by (apply Hy; lia). rewrite (run_rd _ _ (y 1)) by (apply Hy; lia).
  rewrite (run_rdu _ _ _ _ Hcx), (run_rdu _ _ _ _ Hcy).
  rewrite (run_quad MPhi (f_phi f)) by assumption. rewrite (run_quad MPsix (f_x f)) by assumption.
  rewrite (run_quad MPsiy (f_y f)) by assumption. rewrite (run_quad Psixy (f_xy f)) by assumption.
  rewrite (run_rd _ _ (x cx)) by (apply Hx; lia). rewrite (run_rd _ _ (y cy)) by (apply Hy; lia).
  rewrite (run_rd _ _ (x j)) by (apply Hx; lia). rewrite (run_rd _ _ (y i)) by (apply Hy; lia).
  rewrite (run_rd _ _ _ _ Xa), (run_rd _ _ _ _ Ya), (run_rdu _ _ _ _ Ht).
  subst new. unfold updated. cbv zeta.
  pose proof (Hp i j Hi Hj) as A1. pose proof (Hpx i j Hi Hj) as A2. pose proof (Hpy i j Hi Hj) as A3. pose proof (Hpxy i j Hi Hj) as A4.
  unfold rows_of in A1, A2, A3, A4.
  assert (Base0 : exists m1, run Ret m = Ok m1 /\ m1 (Phi, i * nx + j, 0) = Some (D (fst (fst (f_phi f i j, f_x f i j, f_y f i j)))) /\
    m1 (Psix, i * nx + j, 0) = Some (D (snd (fst (f_phi f i j, f_x f i j, f_y f i j)))) /\ m1 (Psiy, i * nx + j, 0) = Some (D (snd (f_phi f i j, f_x f i j, f_y f i j)))).
  { exists m. auto. }
  destruct tr as [|q|q]; try exact Base0.
  destruct q as [q|q|]; [destruct q as [q|q|]; try exact Base0| destruct q as [q|q|]; [exact Base0|destruct q as [q|q|]; try exact Base0|] |].
  - erewrite run_rd by exact A2. erewrite run_wr by exact A1. erewrite run_rd by (look; exact A4). erewrite run_rd by (look; exact A3).
    erewrite run_wr by (look; exact A3). cbn [run]. eexists; split; [reflexivity|]. cbn [fst snd]. repeat split; look; first [reflexivity|assumption].
  - erewrite run_rd by exact A1. erewrite run_rd by exact A2. erewrite run_rd by exact A3. erewrite run_wr by exact A1.
    cbn [run]. eexists; split; [reflexivity|]. cbn [fst snd]. repeat split; look; first [reflexivity|assumption].
  - erewrite run_rd by exact A3. erewrite run_wr by exact A1. erewrite run_rd by (look; exact A4). erewrite run_rd by (look; exact A2).
    erewrite run_wr by (look; exact A2). cbn [run]. eexists; split; [reflexivity|]. cbn [fst snd]. repeat split; look; first [reflexivity|assumption].
  - erewrite run_wr by exact A1. erewrite run_wr by (look; exact A2). erewrite run_wr by (look; exact A3).
    cbn [run]. eexists; split; [reflexivity|]. replace (String.eqb "Heuns" "SuperConsistent") with false by reflexivity.
    replace (String.eqb "SuperConsistent" "SuperConsistent") with true by reflexivity. cbn [fst snd]. repeat split; look; first [reflexivity|assumption].
Qed.
(** no cell was stored *)
Lemma update_kernel_undef (F : flow T) t dt Tp x y m i j :
  3 <= nx -> 3 <= ny -> nodes_at nx ny x y m -> m (Cellx, i * nx + j, 0) = Some Undef -> 0 <= i < ny -> 0 <= j < nx ->
  run (update_kernel F nx t dt Tp (i, j)) m = UB Uninitialised.
Proof.
  intros N1 N2 [Hx Hy] Hcx Hi Hj. unfold update_kernel, fl. cbv zeta. rewrite at_index by assumption.
  rewrite (run_rd _ _ (x 2)) by (apply Hx; lia). rewrite (run_rd _ _ (x 1)) by (apply Hx; lia).
  rewrite (run_rd _ _ (y 2)) by (apply Hy; lia). rewrite (run_rd _ _ (y 1)) by (apply Hy; lia).
  unfold rdu. cbn [run]. rewrite Hcx. reflexivity.
Qed.

Lemma copy_kernel_run (f g h : val T) m i j : 0 <= i < ny -> 0 <= j < nx ->
  m (Phi, i * nx + j, 0) = Some f -> m (Psix, i * nx + j, 0) = Some g -> m (Psiy, i * nx + j, 0) = Some h ->
  present MPhi ny nx (rows_of nx m) -> present MPsix ny nx (rows_of nx m) -> present MPsiy ny nx (rows_of nx m) ->
  exists m1, run (copy_kernel nx (i, j)) m = Ok m1 /\ m1 (MPhi, i * nx + j, 0) = Some f /\
    m1 (MPsix, i * nx + j, 0) = Some g /\ m1 (MPsiy, i * nx + j, 0) = Some h.
Proof.
  intros Hi Hj Hf Hg Hh P1 P2 P3. unfold copy_kernel, fl. cbv zeta. rewrite at_index by assumption.
  destruct (some_of _ (P1 i j Hi Hj)) as [v1 V1]. destruct (some_of _ (P2 i j Hi Hj)) as [v2 V2]. destruct (some_of _ (P3 i j Hi Hj)) as [v3 V3].
  unfold rows_of in V1, V2, V3. cbn [run]. rewrite Hf, V1. rewrite (upd_other _ _ _ (Psix, _, _)) by congruence. rewrite Hg.
  rewrite (upd_other _ _ _ (MPsix, _, _)) by congruence. rewrite V2. look. rewrite Hh, V3. eexists; split; [reflexivity|].
  repeat split; look; reflexivity.
Qed.

(** mixed derivatives *)
Lemma run_diff a f k k' i j i' j' h (c : T -> prog T) m : holds a ny nx f (rows_of nx m) ->
  0 <= i < ny -> 0 <= j < nx -> 0 <= i' < ny -> 0 <= j' < nx -> k = i * nx + j -> k' = i' * nx + j' ->
  run (diff a k k' h c) m = run (c ((f i j - f i' j') / h)%num) m.
Proof.
  intros H I1 I2 I3 I4 -> ->. unfold diff. rewrite !at_index by assumption.
  rewrite (run_rd m _ (f i j)) by (apply (H i j I1 I2)). rewrite (run_rd m _ (f i' j')) by (apply (H i' j' I3 I4)). reflexivity.
Qed.
Lemma mixed_kernel_run dx dy px py m k l : 2 <= nx -> 2 <= ny -> 0 <= k < ny -> 0 <= l < nx ->
  holds Psix ny nx px (rows_of nx m) -> holds Psiy ny nx py (rows_of nx m) -> present Psixy ny nx (rows_of nx m) ->
  exists m1, run (mixed_kernel nx ny dx dy (k, l)) m = Ok m1 /\ m1 (Psixy, k * nx + l, 0) = Some (D (mixed_cuda nx ny dx dy px py k l)).
Proof.
  intros N1 N2 Hk Hl Hx Hy Hp. destruct Hn as (B1 & B2 & B3). unfold mixed_kernel, mixed_cuda, mixed_val, sx, sy, comb. cbv zeta.
  rewrite at_index by assumption. rewrite (u32_small (ny - 1)), (u32_small (nx - 1)) by lia.
  destruct (some_of _ (Hp k l Hk Hl)) as [v0 P0]. unfold rows_of in P0.
  Ltac fin_put v0 P0 := rewrite (run_wr _ _ _ v0) by exact P0; cbn [run]; eexists; split; [reflexivity|]; look; reflexivity.
  destruct (Z.eqb_spec k 0); destruct (Z.eqb_spec k (ny - 1)); destruct (Z.eqb_spec l 0); destruct (Z.eqb_spec l (nx - 1));
    cbn [orb andb negb]; try lia; subst.
  - rewrite (run_diff Psiy py _ _ 0 1 0 0) by (auto; lia). rewrite (run_diff Psix px _ _ 1 0 0 0) by (auto; lia).
    rewrite (run_diff Psix px _ _ 1 1 0 1) by (auto; lia). rewrite (run_diff Psiy py _ _ 1 1 1 0) by (auto; lia). fin_put v0 P0.
  - rewrite (run_diff Psiy py _ _ 0 (nx - 1) 0 (nx - 2)) by (auto; lia). rewrite (run_diff Psix px _ _ 1 (nx - 2) 0 (nx - 2)) by (auto; lia).
    rewrite (run_diff Psix px _ _ 1 (nx - 1) 0 (nx - 1)) by (auto; lia). rewrite (run_diff Psiy py _ _ 1 (nx - 1) 1 (nx - 2)) by (auto; lia). fin_put v0 P0.
  - rewrite (run_diff Psiy py _ _ 0 (l + 1) 0 (l - 1)) by (auto; lia). fin_put v0 P0.
  - rewrite (run_diff Psiy py _ _ (ny - 2) 1 (ny - 2) 0) by (auto; lia). rewrite (run_diff Psix px _ _ (ny - 1) 0 (ny - 2) 0) by (auto; lia).
    rewrite (run_diff Psix px _ _ (ny - 1) 0 (ny - 2) 1) by (auto; lia). rewrite (run_diff Psiy py _ _ (ny - 1) 1 (ny - 1) 0) by (auto; lia). fin_put v0 P0.
  - rewrite (run_diff Psiy py _ _ (ny - 2) (nx - 1) (ny - 2) (nx - 2)) by (auto; lia). rewrite (run_diff Psix px _ _ (ny - 1) (nx - 2) (ny - 2) (nx - 2)) by (auto; lia).
    rewrite (run_diff Psix px _ _ (ny - 1) (nx - 1) (ny - 2) (nx - 1)) by (auto; lia). rewrite (run_diff Psiy py _ _ (ny - 1) (nx - 1) (ny - 1) (nx - 2)) by (auto; lia). fin_put v0 P0.
  - rewrite (run_diff Psiy py _ _ (ny - 1) (l + 1) (ny - 1) (l - 1)) by (auto; lia). fin_put v0 P0.
  - rewrite (run_diff Psix px _ _ (k + 1) 0 (k - 1) 0) by (auto; lia). fin_put v0 P0.
  - rewrite (run_diff Psix px _ _ (k + 1) (nx - 1) (k - 1) (nx - 1)) by (auto; lia). fin_put v0 P0.
  - rewrite (run_diff Psiy py _ _ k (l + 1) k (l - 1)) by (auto; lia). rewrite (run_diff Psix px _ _ (k + 1) l (k - 1) l) by (auto; lia). fin_put v0 P0.
Qed.
(** a missing neighbour spoils the mixed derivative *)
Lemma mixed_undef_x dx dy m l : 2 <= nx -> 2 <= ny -> 1 <= l < nx - 1 -> m (Psiy, l + 1, 0) = Some Undef ->
  run (mixed_kernel (T := T) nx ny dx dy (0, l)) m = UB Uninitialised.
Proof.
  intros N1 N2 Hl H. destruct Hn as (B1 & B2 & B3). unfold mixed_kernel. cbv zeta. rewrite at_index by lia.
  rewrite (u32_small (ny - 1)), (u32_small (nx - 1)) by lia. replace (l =? 0) with false by lia. replace (l =? nx - 1) with false by lia.
  cbn [Z.eqb orb andb negb]. unfold diff, rd. cbn [run]. rewrite Z.mul_0_l, Z.add_0_l, (u32_small (l + 1)) by lia. rewrite H. reflexivity.
Qed.
Lemma mixed_undef_y dx dy m k : 2 <= nx -> 2 <= ny -> 1 <= k < ny - 1 -> m (Psix, (k + 1) * nx, 0) = Some Undef ->
  run (mixed_kernel (T := T) nx ny dx dy (k, 0)) m = UB Uninitialised.
Proof.
  intros N1 N2 Hk H. destruct Hn as (B1 & B2 & B3). unfold mixed_kernel. cbv zeta. rewrite at_index by lia.
  rewrite (u32_small (ny - 1)), (u32_small (nx - 1)) by lia. replace (k =? 0) with false by lia. replace (k =? ny - 1) with false by lia.
  cbn [Z.eqb orb andb negb]. unfold diff, rd. cbn [run]. replace (k * nx + 0 + nx) with ((k + 1) * nx) by lia. rewrite (u32_small ((k + 1) * nx)) by nia. rewrite H. reflexivity.
Qed.

Definition init_dev {TG : Trig T} (x y : T) : T := ((nofZ 0 - nexp (nofZ 0 - rcircle * rcircle)) + nexp (nofZ 0 - (sqr (x - init_xo) + sqr (y - init_yo))))%num.
Lemma init_kernel_run {TG : Trig T} p px py pxy (x y : Z -> T) m i j : NoDup [p; px; py; pxy] -> ~ In AX1 [p; px; py; pxy] -> ~ In AY1 [p; px; py; pxy] ->
  nodes_at nx ny x y m -> (forall a, In a [p; px; py; pxy] -> present a ny nx (rows_of nx m)) -> 0 <= i < ny -> 0 <= j < nx ->
  exists m1, run (init_kernel nx (i, j) p px py pxy) m = Ok m1 /\
    m1 (p, i * nx + j, 0) = Some (D (init_dev (x j) (y i))) /\ m1 (px, i * nx + j, 0) = Some (D (derivxinit (x j) (y i))) /\
    m1 (py, i * nx + j, 0) = Some (D (derivyinit (x j) (y i))) /\ m1 (pxy, i * nx + j, 0) = Some (D (derivxyinit (x j) (y i))).
Proof.
  intros Nd _ _ [Hx Hy] Pr Hi Hj. unfold init_kernel, fl. cbv zeta. rewrite at_index by assumption.
  rewrite (run_rd _ _ (x j)) by (apply Hx; lia). rewrite (run_rd _ _ (y i)) by (apply Hy; lia).
  destruct (some_of _ (Pr p ltac:(cbn; auto) i j Hi Hj)) as [v0 V0]. destruct (some_of _ (Pr px ltac:(cbn; auto) i j Hi Hj)) as [v1 V1].
  destruct (some_of _ (Pr py ltac:(cbn; auto) i j Hi Hj)) as [v2 V2]. destruct (some_of _ (Pr pxy ltac:(cbn; auto) i j Hi Hj)) as [v3 V3].
  unfold rows_of in V0, V1, V2, V3. cbv zeta.
  assert (D1 : p <> px /\ p <> py /\ p <> pxy /\ px <> py /\ px <> pxy /\ py <> pxy).
  { clear - Nd. repeat match goal with H : NoDup _ |- _ => inversion H; clear H; subst end. cbn in *. intuition. }
  destruct D1 as (D1 & D2 & D3 & D4 & D5 & D6).
  rewrite (run_wr _ _ _ v0) by exact V0. rewrite (run_wr _ _ _ v1) by (look; exact V1). rewrite (run_wr _ _ _ v2) by (look; exact V2).
  rewrite (run_wr _ _ _ v3) by (look; exact V3). cbn [run]. eexists; split; [reflexivity|].
  repeat split; look; reflexivity.
Qed.
End Alone.
