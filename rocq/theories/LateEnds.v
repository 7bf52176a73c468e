(** What the server, the bot and the program do with every text whose sentences are covered. *)

From Coq Require Import String NArith List Bool Arith Lia.
From Verif Require Import Base Peg PegSpec TreeSpec Ast Parser ParserSpec ApiFacts Logic LogicWords LogicSpec LogicApi App AppSpec AppApi AppTotal Main MainSpec MainApi
  Dedup ClauseApps SortApi LateDigit LateFacts LateApi.
Import ListNotations.
Open Scope string_scope.
Open Scope nat_scope.

Section Every.
Variable is_punct : N -> bool.
Hypothesis Hp : punct_plain is_punct.
Variable U : unicode.

(** Either Tree fails, or it has a tree with a late digit or without, and Text accordingly. *)
Lemma three x :
  (exists e, fst (tree is_punct (new_parser x)) = Ok (Err e)) \/
  (exists n, fst (tree is_punct (new_parser x)) = Ok (Got (Some n)) /\
    ((late_digit (p_text n) /\ fst (text_of is_punct (new_parser x)) = Panic PRuntime) \/
     (~ late_digit (p_text n) /\ exists t, fst (text_of is_punct (new_parser x)) = Ok (Got (Some t))))).
Proof.
  destruct (post_is is_punct U x) as [e T _|_ X _|n lead d T X _].
  - left. eauto.
  - right. destruct (proj1 (late_panics is_punct x Hp (new_parser x) (new_parser x) (RNew _ _) (RNew _ _))) as (n & T & L); [eauto|].
    exists n. split; [exact T|]. left. auto.
  - right. exists n. split; [exact T|]. right.
    destruct (late_exact is_punct Hp x (new_parser x) (new_parser x) n (RNew _ _) (RNew _ _) T) as [_ B]. split; [apply B; eauto|eauto].
Qed.

Theorem every_answer input : clause_sentences is_punct U input ->
  match fst (tree is_punct (new_parser input)) with
  | Ok (Err e) => answers is_punct U input (Ok (RError (error_string e)))
  | Ok (Got (Some n)) =>
      (late_digit (p_text n) /\ answers is_punct U input (Panic PRuntime)) \/
      (~ late_digit (p_text n) /\ exists a lead d, answers is_punct U input (Ok (RFull a)) /\
        fst (text_of is_punct (new_parser input)) = Ok (Got (Some (NText lead d))) /\
        a_ast a = NText lead d /\ (a_logic a = "fragment" <-> ~ has_sentence d))
  | _ => False
  end.
Proof.
  intros C. destruct (three input) as [(e & T)|(n & T & [[L P]|[L (t & X)]])]; rewrite T.
  - apply post_error. eauto.
  - left. split; [exact L|]. eapply late_post; eauto.
  - right. split; [exact L|]. destruct (settled_answers is_punct U input) as [(m & A)|(a & lead & d & A & Ea & F)].
    + congruence.
    + apply clause_settles, C.
    + apply post_error in A. destruct A as (e & T' & _). congruence.
    + exists a, lead, d. split; [exact A|]. split; [|auto]. apply post_full in A. destruct A as (t' & lead' & d' & l & _ & X' & _ & ->). cbn in Ea. injection Ea as <- <-. exact X'.
Qed.

Theorem every_run path input : clause_sentences is_punct U input ->
  match fst (tree is_punct (new_parser input)) with
  | Ok (Err e) => runs is_punct U path input ((line (pretty_fail "" (dedup (pe_tree e))) ++ line (path ++ error_string e))%string, Exit 1)
  | Ok (Got (Some n)) =>
      (late_digit (p_text n) /\ runs is_punct U path input (""%string, Died PRuntime)) \/
      (~ late_digit (p_text n) /\ exists lead d l,
        fst (text_of is_punct (new_parser input)) = Ok (Got (Some (NText lead d))) /\ logic_part U d l /\
        runs is_punct U path input ((syntax_part n (NText lead d) ++ l)%string, Exit 0))
  | _ => False
  end.
Proof.
  intros C. destruct (three input) as [(e & T)|(n & T & [[L P]|[L (t & X)]])]; rewrite T.
  - apply main_error. eauto.
  - left. split; [exact L|]. eapply late_main; eauto.
  - right. split; [exact L|]. destruct (settled_ends is_punct U path input) as (out & k & A).
    + congruence.
    + apply clause_settles, C.
    + destruct (main_status _ _ _ _ _ _ A) as [->| ->].
      * assert (B := A). apply main_full in B. destruct B as (t' & lead & d & l & T' & X' & P & ->). rewrite T in T'. injection T' as <-. eauto 8.
      * apply main_error in A. destruct A as (e & T' & _). congruence.
Qed.

Theorem every_reply m x : asked U m x -> clause_sentences is_punct U x ->
  match fst (text_of is_punct (new_parser x)) with
  | Ok (Err e) => replies is_punct U m (Ok (Some ("syntax error " ++ error_string e)%string))
  | Ok (Got (Some t)) => exists lead d math, t = NText lead d /\ said U d math /\
      replies is_punct U m (Ok (Some (with_newline (Braces.braces_string t) ++ math)%string))
  | _ => (exists n, fst (tree is_punct (new_parser x)) = Ok (Got (Some n)) /\ late_digit (p_text n)) /\
      replies is_punct U m (Panic PRuntime)
  end.
Proof.
  intros A C. destruct (three x) as [(e & T)|(n & T & [[L P]|[L (t & X)]])].
  - destruct (text_tree_strong is_punct x (new_parser x) (new_parser x) (RNew _ _) (RNew _ _)) as (E1 & _). destruct (proj2 E1) as (e' & X); [eauto|].
    rewrite X. apply bot_says. exists x. split; [exact A|]. left. eauto.
  - rewrite P. split; [eauto|]. eapply late_bot; eauto.
  - rewrite X. destruct (settled_replies is_punct U m) as ([s|] & Rp & N).
    + intros y B. assert (y = x) as ->. { destruct (asked_or_not U m) as [[_ K]|(_ & _ & K)]; [contradiction (K x A)|]. rewrite (K x A), (K y B). reflexivity. } split; [congruence|apply clause_settles, C].
    + assert (Rs := Rp). apply bot_says in Rs. destruct Rs as (y & B & D).
      assert (y = x) as ->. { destruct (asked_or_not U m) as [[_ K]|(_ & _ & K)]; [contradiction (K x A)|]. rewrite (K x A), (K y B). reflexivity. }
      destruct D as [(e & X' & _)|(lead & d & math & X' & Sd & ->)]; [congruence|]. rewrite X in X'. injection X' as ->. eauto 8.
    + destruct (proj1 N eq_refl x A).
Qed.
End Every.
