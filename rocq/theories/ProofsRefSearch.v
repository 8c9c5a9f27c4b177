(** The cell search on sorted real nodes. *)
From Coq Require Import ZArith List Permutation Bool Lia String Reals Lra.
From Verif Require Import Base Num ModelVec ModelRefMath ModelRefMem ModelRef SpecRefPar SpecRefRun ProofsBase ProofsGridProps ProofsRefMem ProofsRefPar ProofsRefRun ProofsRefUpd.
Open Scope Z_scope.

Lemma lb_range (x : Z -> R) v n : forall k,
  (forall i j, k <= i -> i < j -> j < k + Z.of_nat n -> (x i < x j)%R) ->
  let c := lower_bound (map x (map (fun i => k + Z.of_nat i) (seq 0 n))) v in
  0 <= c <= Z.of_nat n /\ (forall i, k <= i < k + c -> (x i < v)%R) /\ (c < Z.of_nat n -> (v <= x (k + c)%Z)%R).
Proof.
  induction n as [|n IH]; intros k H c.
  - subst c. cbn. split; [lia|]. split; intros; lia.
  - subst c. cbn [seq map lower_bound]. replace (map (fun i => k + Z.of_nat i) (seq 1 n)) with (map (fun i => (k + 1) + Z.of_nat i) (seq 0 n))
      by (rewrite <- seq_shift, map_map; apply map_ext; intros; lia).
    specialize (IH (k + 1)). cbv zeta in IH.
    set (c := lower_bound (map x (map (fun i => (k + 1) + Z.of_nat i) (seq 0 n))) v) in *. clearbody c.
    destruct IH as (I1 & I2 & I3); [intros; apply H; lia|].
    replace (k + Z.of_nat 0) with k by lia.
    change (x k <? v)%num with (Rltb (x k) v). destruct (Rltb_spec (x k) v).
    + split; [lia|]. split.
      * intros i Hi. destruct (Z.eq_dec i k) as [->|]; [assumption|]. apply I2. lia.
      * intros Hc. replace (k + (1 + c)) with (k + 1 + c) by lia. apply I3. lia.
    + split; [lia|]. split; [intros; lia|]. intros _. rewrite Z.add_0_r. lra.
Qed.
Lemma range_seq n : 0 <= n -> range 0 n = map (fun i => 0 + Z.of_nat i) (seq 0 (Z.to_nat n)).
Proof. intros. unfold range. rewrite Z.sub_0_r. apply map_ext. intros; lia. Qed.

Lemma locate_in n x lo hi v : 2 <= n < 4294967296 -> sorted_nodes n x lo hi -> inside lo hi v ->
  let c := locate (map x (range 0 n)) v in 0 <= c < n - 1 /\ (x c < v <= x (c + 1)%Z)%R.
Proof.
  intros N (H0 & H1 & H) [V1 V2]. unfold locate. rewrite range_seq by lia.
  pose proof (lb_range x v (Z.to_nat n) 0) as B. cbv zeta in B.
  set (c := lower_bound _ v) in *. clearbody c. rewrite Z2Nat.id in B by lia.
  destruct B as (B1 & B2 & B3); [intros; apply H; lia|].
  assert (c <> 0). { intros ->. rewrite Z.add_0_l in B3. specialize (B3 ltac:(lia)). subst lo. lra. }
  assert (c <> n). { intros ->. specialize (B2 (n - 1) ltac:(lia)). subst hi. lra. }
  rewrite u32_small by lia. split; [lia|]. split; [apply B2; lia|]. replace (c - 1 + 1) with c by lia. apply B3. lia.
Qed.

Lemma ends n x lo hi : 2 <= n -> sorted_nodes n x lo hi -> (lo < hi)%R.
Proof. intros N (<- & <- & H). apply H; lia. Qed.
Lemma clamp_in lo hi v : inside lo hi v -> clamp lo hi v = v.
Proof. intros [A B]. unfold clamp. rewrite Rmin_left by lra. apply Rmax_right. lra. Qed.
Lemma around_in n x lo hi v : 2 <= n < 4294967296 -> sorted_nodes n x lo hi -> inside lo hi v ->
  cell_around n x lo hi v (locate (map x (range 0 n)) v).
Proof.
  intros N S V. destruct (locate_in n x lo hi v N S V) as (A & B & C). unfold cell_around. rewrite clamp_in by exact V.
  repeat split; try lia; lra.
Qed.
Lemma around_lo n x lo hi v : 2 <= n < 4294967296 -> sorted_nodes n x lo hi -> (v <= lo)%R -> cell_around n x lo hi v 0.
Proof.
  intros N S V. pose proof (ends n x lo hi ltac:(lia) S). destruct S as (H0 & H1 & H2). unfold cell_around, clamp. rewrite Rmin_left by lra. rewrite Rmax_left by lra.
  repeat split; try lia; try lra. rewrite <- H0. apply Rlt_le, H2; lia.
Qed.
Lemma around_hi n x lo hi v : 2 <= n < 4294967296 -> sorted_nodes n x lo hi -> (hi <= v)%R -> cell_around n x lo hi v (u32 (n - 2)).
Proof.
  intros N S V. pose proof (ends n x lo hi ltac:(lia) S). destruct S as (H0 & H1 & H2). unfold cell_around, clamp. rewrite u32_small by lia.
  rewrite Rmin_right by lra. rewrite Rmax_right by lra. replace (n - 2 + 1) with (n - 1) by lia.
  repeat split; try lia; try lra. rewrite <- H1. apply Rlt_le, H2; lia.
Qed.

Lemma insideb lo hi v : ((lo <? v) && (v <? hi))%num%bool = true <-> inside lo hi v.
Proof.
  change (lo <? v)%num with (Rltb lo v). change (v <? hi)%num with (Rltb v hi). unfold inside.
  destruct (Rltb_spec lo v); destruct (Rltb_spec v hi); cbn; split; intros; try discriminate; try reflexivity; try lra; auto.
Qed.
Lemma outsideb lo hi v : (lo < hi)%R -> ((lo <? v) && (v <? hi))%num%bool = false ->
  ((v <=? lo)%num = true /\ (v <= lo)%R) \/ ((v <=? lo)%num = false /\ (hi <=? v)%num = true /\ (hi <= v)%R).
Proof.
  change (lo <? v)%num with (Rltb lo v). change (v <? hi)%num with (Rltb v hi).
  change (v <=? lo)%num with (Rleb v lo). change (hi <=? v)%num with (Rleb hi v). intros L.
  destruct (Rltb_spec lo v); destruct (Rltb_spec v hi); cbn; try discriminate; intros _;
  destruct (Rleb_spec v lo); destruct (Rleb_spec hi v); auto; lra.
Qed.

(** the search in one statement *)
Lemma found_spec nx ny x y x1 x2 y1 y2 xa ya : 2 <= nx < 4294967296 -> 2 <= ny < 4294967296 ->
  sorted_nodes nx x x1 x2 -> sorted_nodes ny y y1 y2 ->
  let r := found nx ny x1 x2 y1 y2 (map x (range 0 nx)) (map y (range 0 ny)) xa ya in
  (fst r = 1 <-> inside x1 x2 xa /\ inside y1 y2 ya) /\ (fst r = 2 <-> inside x1 x2 xa /\ ~ inside y1 y2 ya) /\
  (fst r = 3 <-> ~ inside x1 x2 xa /\ inside y1 y2 ya) /\ (fst r = 4 <-> ~ inside x1 x2 xa /\ ~ inside y1 y2 ya) /\
  match snd r with Some c => fst r <> 4 /\ cell_around nx x x1 x2 xa (fst c) /\ cell_around ny y y1 y2 ya (snd c) | None => fst r = 4 end.
Proof.
  intros N1 N2 S1 S2. unfold found. cbv zeta.
  pose proof (insideb x1 x2 xa) as Bx. pose proof (insideb y1 y2 ya) as By.
  pose proof (outsideb x1 x2 xa (ends nx x x1 x2 (proj1 N1) S1)) as Ox. pose proof (outsideb y1 y2 ya (ends ny y y1 y2 (proj1 N2) S2)) as Oy.
  destruct ((x1 <? xa) && (xa <? x2))%num%bool; destruct ((y1 <? ya) && (ya <? y2))%num%bool.
  - assert (Ix : inside x1 x2 xa) by tauto. assert (Iy : inside y1 y2 ya) by tauto. cbn [fst snd].
    (split; [split; tauto|]); (split; [split; [congruence|tauto]|]); (split; [split; [congruence|tauto]|]); (split; [split; [congruence|tauto]|]).
    split; [congruence|]. split; apply around_in; auto.
  - assert (Ix : inside x1 x2 xa) by tauto. assert (Iy : ~ inside y1 y2 ya) by (intros K; apply By in K; discriminate).
    destruct (Oy eq_refl) as [[E L]|(E & E2 & L)]; rewrite E; [|rewrite E2]; cbn [fst snd];
    (split; [split; [congruence|tauto]|]); (split; [split; tauto|]); (split; [split; [congruence|tauto]|]); (split; [split; [congruence|tauto]|]);
    (split; [congruence|]); (split; [apply around_in; auto|]); [apply around_lo|apply around_hi]; auto.
  - assert (Iy : inside y1 y2 ya) by tauto. assert (Ix : ~ inside x1 x2 xa) by (intros K; apply Bx in K; discriminate).
    destruct (Ox eq_refl) as [[E L]|(E & E2 & L)]; rewrite E; [|rewrite E2]; cbn [fst snd];
    (split; [split; [congruence|tauto]|]); (split; [split; [congruence|tauto]|]); (split; [split; tauto|]); (split; [split; [congruence|tauto]|]);
    (split; [congruence|]); (split; [first [apply around_lo|apply around_hi]; auto|apply around_in; auto]).
  - assert (Iy : ~ inside y1 y2 ya) by (intros K; apply By in K; discriminate). assert (Ix : ~ inside x1 x2 xa) by (intros K; apply Bx in K; discriminate).
    cbn [fst snd]. (split; [split; [congruence|tauto]|]); (split; [split; [congruence|tauto]|]); (split; [split; [congruence|tauto]|]); (split; [split; tauto|]). reflexivity.
Qed.
