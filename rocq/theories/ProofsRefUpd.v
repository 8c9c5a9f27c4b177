(** update_levelset_data and update_mixed_derivatives as functions of the stored fields. *)
From Coq Require Import ZArith List Permutation Bool Lia String.
From Verif Require Import Base Num NumB64 ModelVec ModelRefMath ModelRefMem ModelRef SpecRefPar SpecRefRun ProofsBase ProofsRefMem ProofsRefPar ProofsRefRun.
Open Scope Z_scope.

Lemma u32_small z : 0 <= z < 4294967296 -> u32 z = z.
Proof. intros. unfold u32. apply Z.mod_small. lia. Qed.

Section Upd.
Context {T : Type} {NT : Num T}.
Implicit Types (m : mem T).

Lemma run_rdquad m a rows cols f cy cx (k : quad T -> prog T) : rows < 4294967296 -> cols < 4294967296 -> holds a rows cols f m ->
  0 <= cy < rows - 1 -> 0 <= cx < cols - 1 -> run (rdquad a cy cx k) m = run (k (quad_at f cy cx)) m.
Proof.
  intros R1 R2 H Hy Hx. unfold rdquad. rewrite !u32_small by lia.
  rewrite (run_rd _ _ _ _ (H cy cx ltac:(lia) ltac:(lia))), (run_rd _ _ _ _ (H cy (cx + 1) ltac:(lia) ltac:(lia))),
    (run_rd _ _ _ _ (H (cy + 1) cx ltac:(lia) ltac:(lia))), (run_rd _ _ _ _ (H (cy + 1) (cx + 1) ltac:(lia) ltac:(lia))). reflexivity.
Qed.

Lemma update_loop (F : flow T) sch rk3 t dt Tp nx ny x y (xa ya : Z -> Z -> T) (tr cx cy : Z -> Z -> Z)
    (fp fx fy fxy mp mx my mxy : Z -> Z -> T) lo hi m :
  3 <= nx < 4294967296 -> 3 <= ny < 4294967296 ->
  nodes_at nx ny x y m -> holds Xadv ny nx xa m -> holds Yadv ny nx ya m ->
  holdsu Tracker ny nx tr m -> holdsu Cellx ny nx cx m -> holdsu Celly ny nx cy m ->
  holds Phi ny nx fp m -> holds Psix ny nx fx m -> holds Psiy ny nx fy m -> holds Psixy ny nx fxy m ->
  holds MPhi ny nx mp m -> holds MPsix ny nx mx m -> holds MPsiy ny nx my m -> holds MPsixy ny nx mxy m ->
  (forall i j, 0 <= i < ny -> 0 <= j < nx -> 0 <= cx i j < nx - 1 /\ 0 <= cy i j < ny - 1) ->
  0 <= lo -> hi <= nx ->
  let new i j := updated F sch rk3 t dt Tp (x 2 - x 1)%num (y 2 - y 1)%num (x (cx i j)) (y (cy i j)) (x j) (y i) (xa i j) (ya i j)
      (quad_at mp (cy i j) (cx i j)) (quad_at mx (cy i j) (cx i j)) (quad_at my (cy i j) (cx i j)) (quad_at mxy (cy i j) (cx i j))
      (tr i j) (fp i j) (fx i j) (fy i j) (fxy i j) in
  exists m', runs (update_levelset_data F sch rk3 t dt Tp ny lo hi) m = Ok m' /\
    forall a i j, m' (a, i, j) = if in_rng ny lo hi i j then match a with
      | Phi => Some (D (fst (fst (new i j)))) | Psix => Some (D (snd (fst (new i j)))) | Psiy => Some (D (snd (new i j)))
      | _ => m (a, i, j) end else m (a, i, j).
Proof.
  intros N1 N2 [Hx Hy] Xa Ya Ht Hcx Hcy Hp Hpx Hpy Hpxy Mp Mx My Mxy Hc L1 L2 new. unfold update_levelset_data.
  destruct (loop_nodes (update_body F sch rk3 t dt Tp) [AX1; AY1; Xadv; Yadv; Cellx; Celly; Tracker; MPhi; MPsix; MPsiy; MPsixy; Psixy]
    [Phi; Psix; Psiy] ny lo hi m
    (fun l => match l with (a, i, j) => match a with Phi => Some (D (fst (fst (new i j)))) | Psix => Some (D (snd (fst (new i j))))
      | _ => Some (D (snd (new i j))) end end)) as (m' & H & H1).
  - intros []; cbn; congruence.
  - intros; apply update_touches.
  - intros i j Hi Hj. assert (Hj' : 0 <= j < nx) by lia. destruct (Hc i j Hi Hj') as [C1 C2].
    unfold update_body.
    rewrite (run_rd _ _ (x 2)) by (apply Hx; lia). rewrite (run_rd _ _ (x 1)) by (apply Hx; lia).
    rewrite (run_rd _ _ (y 2)) by (apply Hy; lia). rewrite (run_rd _ _ (y 1)) by (apply Hy; lia). cbv zeta.
    rewrite (run_rdu _ _ _ _ (Hcx i j Hi Hj')), (run_rdu _ _ _ _ (Hcy i j Hi Hj')).
    rewrite (run_rdquad _ _ ny nx mp) by (auto; lia). rewrite (run_rdquad _ _ ny nx mx) by (auto; lia).
    rewrite (run_rdquad _ _ ny nx my) by (auto; lia). rewrite (run_rdquad _ _ ny nx mxy) by (auto; lia).
    rewrite (run_rd _ _ (x (cx i j))) by (apply Hx; lia). rewrite (run_rd _ _ (y (cy i j))) by (apply Hy; lia).
    rewrite (run_rd _ _ (x j)) by (apply Hx; lia). rewrite (run_rd _ _ (y i)) by (apply Hy; lia).
    rewrite (run_rd _ _ _ _ (Xa i j Hi Hj')), (run_rd _ _ _ _ (Ya i j Hi Hj')), (run_rdu _ _ _ _ (Ht i j Hi Hj')).
    subst new. cbn beta. unfold updated. cbv zeta.
    pose proof (Hp i j Hi Hj') as A1. pose proof (Hpx i j Hi Hj') as A2. pose proof (Hpy i j Hi Hj') as A3. pose proof (Hpxy i j Hi Hj') as A4.
    remember (tr i j) as tri eqn:Etr. clear Etr.
    assert (Base0 : forall p px py, m (Phi, i, j) = Some (D p) -> m (Psix, i, j) = Some (D px) -> m (Psiy, i, j) = Some (D py) ->
      exists m1 : mem T, run Ret m = Ok m1 /\ forall a, existsb (arr_eqb a) [Phi; Psix; Psiy] = true -> m1 (a, i, j) =
        match a with Phi => Some (D (fst (fst (p, px, py)))) | Psix => Some (D (snd (fst (p, px, py)))) | _ => Some (D (snd (p, px, py))) end).
    { intros. exists m. split; [reflexivity|]. intros []; cbn; try discriminate; intros _; assumption. }
    destruct tri as [|q|q]; try (apply Base0; assumption).
    destruct q as [q|q|]; [destruct q as [q|q|]; try (apply Base0; assumption)| destruct q as [q|q|]; [apply Base0; assumption|destruct q as [q|q|]; try (apply Base0; assumption)|] |].
    + erewrite run_rd by exact A2. erewrite run_wr by exact A1. erewrite run_rd by (look; exact A4). erewrite run_rd by (look; exact A3).
      erewrite run_wr by (look; exact A3). cbn [run]. eexists; split; [reflexivity|].
      intros []; cbn; try discriminate; intros _; look; first [reflexivity|assumption].
    + erewrite run_rd by exact A1. erewrite run_rd by exact A2. erewrite run_rd by exact A3. erewrite run_wr by exact A1.
      cbn [run]. eexists; split; [reflexivity|]. intros []; cbn; try discriminate; intros _; look; first [reflexivity|assumption].
    + erewrite run_rd by exact A3. erewrite run_wr by exact A1. erewrite run_rd by (look; exact A4). erewrite run_rd by (look; exact A2).
      erewrite run_wr by (look; exact A2). cbn [run]. eexists; split; [reflexivity|].
      intros []; cbn; try discriminate; intros _; look; first [reflexivity|assumption].
    + erewrite run_wr by exact A1. destruct (String.eqb "Heuns" sch); [|destruct (String.eqb "SuperConsistent" sch)].
      * erewrite run_wr by (look; exact A2). erewrite run_wr by (look; exact A3). cbn [run]. eexists; split; [reflexivity|].
        intros []; cbn; try discriminate; intros _; look; first [reflexivity|assumption].
      * erewrite run_wr by (look; exact A2). erewrite run_wr by (look; exact A3). cbn [run]. eexists; split; [reflexivity|].
        intros []; cbn; try discriminate; intros _; look; first [reflexivity|assumption].
      * cbn [run]. eexists; split; [reflexivity|]. intros []; cbn; try discriminate; intros _; look; first [reflexivity|assumption].
  - exists m'. split; [exact H|]. intros a i j. rewrite H1. unfold in_rng. destruct a; cbn; try reflexivity;
      destruct ((0 <=? i) && (i <? ny) && (lo <=? j) && (j <? hi))%bool; reflexivity.
Qed.
End Upd.
