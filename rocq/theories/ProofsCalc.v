(** The derivative flags of the polynomial vocabulary are derivatives. *)
From Coq Require Import Reals Lra.
From Coquelicot Require Import Coquelicot.
From Verif Require Import Base ModelVec SpecInterp.
Open Scope R_scope.

Lemma cubic_derive a x : derivable_pt_lim (cubic a) x (cubic' a x).
Proof. apply is_derive_Reals. unfold cubic, cubic'. auto_derive; [auto|ring]. Qed.

Lemma P1_derive (f f' : nat -> R -> R) d x t :
  (forall i, is_derive (f i) t (f' i t)) -> is_derive (fun t => P1 d (fun i => f i t) x) t (P1 d (fun i => f' i t) x).
Proof.
  intros H. destruct d; unfold P1, cubic, cubic'.
  - auto_derive; [repeat split; eexists; apply H|]. rewrite !(is_derive_unique _ _ _ (H _)). ring.
  - auto_derive; [repeat split; eexists; apply H|]. rewrite !(is_derive_unique _ _ _ (H _)). ring.
Qed.

Lemma dpoly_derive c p a : derivable_pt_lim (fun t => poly c (vset p a t)) (vget p a) (dpoly a c p).
Proof.
  apply is_derive_Reals. destruct a; unfold poly, dpoly, tricubic; cbn [vset vget vx vy vz]; destruct p as [px py pz]; cbn [vset vget vx vy vz].
  - apply is_derive_Reals. apply cubic_derive.
  - apply (P1_derive (fun i t => P1 false (fun j => P1 false (c i j) pz) t) (fun i t => P1 true (fun j => P1 false (c i j) pz) t) false px py).
    intros i. apply is_derive_Reals. apply (cubic_derive (fun j => P1 false (c i j) pz)).
  - apply (P1_derive (fun i t => P1 false (fun j => P1 false (c i j) t) py) (fun i t => P1 false (fun j => P1 true (c i j) t) py) false px pz).
    intros i. apply (P1_derive (fun j t => P1 false (c i j) t) (fun j t => P1 true (c i j) t) false py pz).
    intros j. apply is_derive_Reals. apply (cubic_derive (c i j)).
Qed.

(** mixed derivatives: one more flag is one more derivative *)
Lemma tricubic_derive_y c p dz : derivable_pt_lim (fun t => tricubic true false dz c (vset p AY t)) (vy p) (tricubic true true dz c p).
Proof.
  apply is_derive_Reals. unfold tricubic; destruct p as [px py pz]; cbn [vset vx vy vz].
  apply (P1_derive (fun i t => P1 false (fun j => P1 dz (c i j) pz) t) (fun i t => P1 true (fun j => P1 dz (c i j) pz) t) true px py).
  intros i. apply is_derive_Reals. apply (cubic_derive (fun j => P1 dz (c i j) pz)).
Qed.
Lemma tricubic_derive_z c p dx dy : derivable_pt_lim (fun t => tricubic dx dy false c (vset p AZ t)) (vz p) (tricubic dx dy true c p).
Proof.
  apply is_derive_Reals. unfold tricubic; destruct p as [px py pz]; cbn [vset vx vy vz].
  apply (P1_derive (fun i t => P1 dy (fun j => P1 false (c i j) t) py) (fun i t => P1 dy (fun j => P1 true (c i j) t) py) dx px pz).
  intros i. apply (P1_derive (fun j t => P1 false (c i j) t) (fun j t => P1 true (c i j) t) dy py pz).
  intros j. apply is_derive_Reals. apply (cubic_derive (c i j)).
Qed.
