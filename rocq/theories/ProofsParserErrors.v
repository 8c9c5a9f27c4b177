From Coq Require Import ZArith List String Lia.
From Verif Require Import Base Num ModelVec ModelAnalytic ModelParser SpecParser ProofsParser.
Import ListNotations.
Open Scope string_scope.

(** ends well, throws, or reads out of bounds and then P *)
Definition tame {A} (P : Prop) (o : outcome A) : Prop := match o with Ok _ => True | Throw => True | UB OutOfBounds => P | _ => False end.
Lemma tame_bind {A B} P (o : outcome A) (f : A -> outcome B) : tame P o -> (forall a, o = Ok a -> tame P (f a)) -> tame P (bind o f).
Proof. destruct o as [a|e|n|]; cbn; auto. Qed.
Lemma tame_weak {A} (P Q : Prop) (o : outcome A) : (P -> Q) -> tame P o -> tame Q o.
Proof. destruct o as [a|[]|n|]; cbn; tauto. Qed.
Lemma tame_sub P n k : tame P (ysub n k).
Proof. destruct n as [[]|]; exact I. Qed.
Lemma tame_as {A} P (conv : string -> option A) n : tame P (yas conv n).
Proof. destruct n as [[|s| |]|]; cbn; try exact I. destruct (conv s); exact I. Qed.
Lemma tame_str P nul n : tame P (yas_string nul n).
Proof. destruct n as [[|s| |]|]; cbn; try exact I. destruct nul; exact I. Qed.
Lemma tame_list {A} P (conv : string -> option A) l : tame P (yas_list conv l).
Proof. induction l as [|n l IH]; [exact I|]. cbn [yas_list]. apply tame_bind; [apply tame_as|]. intros a _. apply tame_bind; [exact IH|]. intros; exact I. Qed.
Lemma tame_vec {A} P (conv : string -> option A) n : tame P (yas_vector conv n).
Proof. destruct n as [[| |l|]|]; cbn; try exact I. apply tame_list. Qed.
Lemma tame_read {A} (l : list A) (k : Z) : (0 <= k < 3)%Z -> tame (List.length l < 3)%nat (vread l k).
Proof.
  intro H. unfold vread. destruct (Z.leb_spec 0 k); [|lia].
  destruct (nth_error l (Z.to_nat k)) eqn:E; cbn; [exact I|]. apply nth_error_None in E. lia.
Qed.

Section Errors.
Context {T : Type} (dbl : string -> option T) (int : string -> option Z) (nul : option string).

Lemma vec_at {A} (conv : string -> option A) n k l : bind (ysub (Some n) k) (yas_vector conv) = Ok l -> list_at conv [k] n l.
Proof. intro H. apply read_list1. exact H. Qed.
Definition short {A} (conv : string -> option A) k n : Prop := exists vs, list_at conv [k] n vs /\ (List.length vs < 3)%nat.
Lemma tame_count n k : (0 <= k < 3)%Z -> tame (short int "cells" n) (c <- ysub (Some n) "cells" ;; l <- yas_vector int c ;; vread l k).
Proof.
  intro H. apply tame_bind; [apply tame_sub|]. intros c Hc. apply tame_bind; [apply tame_vec|]. intros l Hl.
  eapply tame_weak; [|apply tame_read; exact H]. intro Hs. exists l. split; [|exact Hs]. apply vec_at. rewrite Hc. exact Hl.
Qed.
Ltac tm := repeat (first [exact I | apply tame_sub | apply tame_as | apply tame_str | apply tame_vec | apply tame_count; lia | apply tame_bind; [|intros ? ?]]).
Lemma tame_general P n : tame P (parse_general nul n).
Proof. unfold parse_general. tm. Qed.
Lemma tame_grid n : tame (short int "cells" n) (parse_grid dbl int (Some n)).
Proof. unfold parse_grid. cbv zeta. tm. Qed.
Lemma tame_time P n : tame P (parse_time dbl nul n).
Proof. unfold parse_time. tm. Qed.
Lemma tame_velocity P n : tame P (parse_velocity dbl nul n).
Proof. unfold parse_velocity. tm. Qed.
Lemma tame_vec3 {A} (l : list A) : tame (List.length l < 3)%nat (vec3_of_vector true l).
Proof.
  unfold vec3_of_vector. destruct (macro_true (negb (Nat.eqb (List.length l) 3))) as [k ->]. cbn [bind].
  repeat (apply tame_bind; [apply tame_read; lia|intros ? _]). exact I.
Qed.
Lemma tame_levelset n : tame (short dbl "center" n) (parse_levelset dbl nul true (Some n)).
Proof.
  unfold parse_levelset. apply tame_bind; [tm|intros ? _]. apply tame_bind; [|intros; tm].
  apply tame_bind; [apply tame_sub|]. intros c Hc. apply tame_bind; [apply tame_vec|]. intros l Hl.
  eapply tame_weak; [|apply tame_vec3]. intro Hs. exists l. split; [|exact Hs]. apply vec_at. rewrite Hc. exact Hl.
Qed.
Lemma tame_section {A} P doc key (p : option yaml -> outcome A) :
  (forall n, at_path [key] doc = Some n -> tame P (p (Some n))) -> tame P (section (Some doc) key p).
Proof.
  intro H. unfold section. apply tame_bind; [apply tame_sub|]. intros [n|] Hn; [|exact I]. apply tame_bind; [|intros; exact I].
  apply H. apply sub1. exact Hn.
Qed.
Lemma under {A} (conv : string -> option A) doc key k n : at_path [key] doc = Some n -> short conv k n ->
  exists vs, list_at conv [key; k] doc vs /\ (List.length vs < 3)%nat.
Proof.
  intros Hn (vs & (l & Hl & Hf) & Hs). exists vs. split; [|exact Hs]. exists l. split; [|exact Hf].
  destruct doc as [| | |kvs]; cbn [at_path] in *; try discriminate. destruct (entry kvs key) as [m|]; [|discriminate]. injection Hn as ->. exact Hl.
Qed.
Definition short_lists (doc : yaml) : Prop :=
  (exists vs, list_at int ["grid"; "cells"] doc vs /\ (List.length vs < 3)%nat) \/
  (exists vs, list_at dbl ["levelset"; "center"] doc vs /\ (List.length vs < 3)%nat).
Lemma tame_parse doc fs : tame (short_lists doc) (parse dbl int nul true doc fs).
Proof.
  unfold parse.
  apply tame_bind; [apply tame_section; intros; apply tame_general|intros ? _].
  apply tame_bind; [apply tame_section; intros n Hn; eapply tame_weak; [|apply tame_grid]; intro; left; eapply under; eassumption|intros ? _].
  apply tame_bind; [apply tame_section; intros; apply tame_time|intros ? _].
  apply tame_bind; [apply tame_section; intros; apply tame_velocity|intros ? _].
  apply tame_bind; [apply tame_section; intros n Hn; eapply tame_weak; [|apply tame_levelset]; intro; right; eapply under; eassumption|intros ? _].
  exact I.
Qed.
Lemma parse_errors doc fs :
  (exists new, parse dbl int nul true doc fs = Ok new) \/ parse dbl int nul true doc fs = Throw \/
  parse dbl int nul true doc fs = UB OutOfBounds /\
    ((exists vs, list_at int ["grid"; "cells"] doc vs /\ (List.length vs < 3)%nat) \/
     (exists vs, list_at dbl ["levelset"; "center"] doc vs /\ (List.length vs < 3)%nat)).
Proof.
  pose proof (tame_parse doc fs) as H. destruct (parse dbl int nul true doc fs) as [a|e|n|]; cbn in H; [eauto| |contradiction|auto].
  right. right. destruct e; try contradiction. split; [reflexivity|exact H].
Qed.
Lemma parse_not_a_map bt fs : (forall s, parse dbl int nul bt (YScalar s) fs = Throw) /\
  (forall l, parse dbl int nul bt (YSeq l) fs = Ok fs) /\ parse dbl int nul bt YNull fs = Ok fs.
Proof. destruct fs. repeat split. Qed.
(** a key below a section that is plain text *)
Lemma parse_scalar_section bt kvs fs key s : In key ["general"; "grid"; "time"; "velocity"; "levelset"] -> entry kvs key = Some (YScalar s) ->
  (forall k n, k <> key -> entry kvs k <> Some n) -> parse dbl int nul bt (YMap kvs) fs = Throw.
Proof.
  intros Hk He Ho.
  assert (F : forall k, k <> key -> yfind kvs k = None)
    by (intros k Hn; rewrite find_entry; destruct (entry kvs k) eqn:E; [destruct (Ho k y Hn E)|reflexivity]).
  assert (G : yfind kvs key = Some (YScalar s)) by (rewrite find_entry; exact He).
  unfold parse, section. cbn [ysub bind].
  destruct Hk as [<-|[<-|[<-|[<-|[<-|[]]]]]]; repeat (rewrite (F _) by discriminate); rewrite G; reflexivity.
Qed.
End Errors.

Lemma parser_errors_case : exists n, list_at (fun s => if String.eqb s "4" then Some 4%Z else None) ["grid"; "cells"] (YMap [("grid", n)]) [4%Z; 4%Z] /\
  entry [("grid", YScalar "4 4")] "grid" = Some (YScalar "4 4").
Proof.
  exists (YMap [("cells", YSeq [YScalar "4"; YScalar "4"])]). split; [|reflexivity]. eexists. split; [reflexivity|].
  repeat constructor; eexists; split; reflexivity.
Qed.
