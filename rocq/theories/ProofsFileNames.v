From Coq Require Import List String Ascii Bool.
From Verif Require Import Base ModelFiles SpecFiles SpecFileNames.
Import ListNotations.
Open Scope string_scope.

Lemma app_snoc_nonempty a c : String.eqb (a ++ String c EmptyString) "" = false.
Proof. destruct a; reflexivity. Qed.
Lemma app_str_assoc (a b c : string) : (a ++ b) ++ c = a ++ (b ++ c).
Proof. induction a as [|x a IH]; cbn; [reflexivity|now rewrite IH]. Qed.
Lemma app_str_nil (a : string) : a ++ "" = a.
Proof. induction a as [|x a IH]; cbn; [reflexivity|now rewrite IH]. Qed.

Lemma split_double b : forall a acc, split_slash (a ++ "//" ++ b) acc = split_slash (a ++ "/" ++ b) acc.
Proof.
  induction a as [|c a IH]; intro acc.
  - cbn. reflexivity.
  - cbn [append split_slash]. cbn [append] in IH. destruct (Ascii.eqb c "/"); [destruct (String.eqb acc "")|]; rewrite IH; reflexivity.
Qed.
Lemma path_double a b : path_of (a ++ "//" ++ b) = path_of (a ++ "/" ++ b).
Proof.
  destruct a as [|c a]; [reflexivity|].
  pose proof (split_double b (String c a) "") as H. change (String c a ++ "//" ++ b) with (String c (a ++ "//" ++ b)) in *.
  change (String c a ++ "/" ++ b) with (String c (a ++ "/" ++ b)) in *. unfold path_of. rewrite H. reflexivity.
Qed.
Lemma call_double o a b u s : names_file o -> call (o (a ++ "//" ++ b)) u s = call (o (a ++ "/" ++ b)) u s.
Proof.
  intros [->|[->|[->|[t ->]]]]; unfold call, fileExists, removeFile, createDirectory, fu_write; rewrite path_double; reflexivity.
Qed.

Lemma split_component rest : forall c acc, (forall x y, c <> x ++ String "/" y) ->
  split_slash (c ++ rest) acc = split_slash rest (acc ++ c).
Proof.
  induction c as [|d c IH]; intros acc H; [now rewrite app_str_nil|]. cbn [append split_slash].
  destruct (Ascii.eqb_spec d "/") as [->|_]; [now destruct (H "" c)|].
  rewrite IH by (intros x y E; apply (H (String d x) y); cbn; now rewrite E). now rewrite app_str_assoc.
Qed.
Lemma eqb_nonempty c : c <> "" -> String.eqb c "" = false.
Proof. intro H. destruct (String.eqb_spec c ""); congruence. Qed.
Lemma split_joined : forall l, Forall component l -> split_slash (joined l) "" = l.
Proof.
  induction l as [|c l IH]; intro H; [reflexivity|]. inversion H as [|? ? [Hc Hs] Hl]; subst. specialize (IH Hl).
  destruct l as [|d l].
  - cbn [joined String.concat]. rewrite <- (app_str_nil c) at 1. rewrite split_component by exact Hs. cbn [split_slash append].
    now rewrite eqb_nonempty.
  - change (joined (c :: d :: l)) with (c ++ "/" ++ joined (d :: l)). rewrite split_component by exact Hs.
    cbn [split_slash append Ascii.eqb Bool.eqb]. now rewrite eqb_nonempty, IH.
Qed.
Lemma joined_head c l : component c -> exists d s, joined (c :: l) = String d s /\ Ascii.eqb d "/" = false.
Proof.
  intros [Hc Hs]. destruct c as [|d c]; [congruence|]. exists d, (match l with [] => c | _ => c ++ "/" ++ joined l end).
  split; [destruct l; reflexivity|]. destruct (Ascii.eqb_spec d "/") as [->|_]; [now destruct (Hs "" c)|reflexivity].
Qed.
Lemma path_joined l : Forall component l -> path_of (joined l) = l /\ path_of ("/" ++ joined l) = "/" :: l.
Proof.
  intro H. pose proof (split_joined l H) as E. split.
  - destruct l as [|c l]; [reflexivity|]. inversion H; subst. destruct (joined_head c l) as (d & s & J & D); [assumption|].
    rewrite J in *. unfold path_of. now rewrite D.
  - cbn [append path_of Ascii.eqb Bool.eqb split_slash]. cbn [String.eqb]. now rewrite E.
Qed.
Lemma different_files l l' : Forall component l -> Forall component l' -> path_of (joined l) = path_of (joined l') -> l = l'.
Proof. intros H H'. now rewrite (proj1 (path_joined l H)), (proj1 (path_joined l' H')). Qed.
Lemma component_case : Forall component ["out"; "run"].
Proof.
  repeat constructor; try discriminate; intros x y E; repeat (destruct x as [|? x]; cbn in E; try discriminate E; injection E; clear E; intros E; intros; subst); try discriminate.
Qed.
