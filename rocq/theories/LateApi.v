(** A tone digit after two letters: what it does to Text, the server, the bot and the program. *)

From Coq Require Import String Ascii NArith ZArith PArith List Lia Bool.
From Verif Require Import Base Utf8 Utf8Facts PegSyntax Grammar Peg PegToaq PegSpec NodeFacts TreeSpec Ast AstSorts Action ActionSpec Parser ParserSpec
  ParserFacts ApiFacts SortApi Logic LogicSpec App AppSpec AppApi Main MainSpec LogicWords LateDigit LateFacts.
Import ListNotations.
Open Scope nat_scope.

Section Api.
Variable is_punct : N -> bool.
Hypothesis Hp : punct_plain is_punct.

Lemma late_runtime text p n : reach is_punct text p -> fst (tree is_punct (new_parser text)) = Ok (Got (Some n)) -> late_digit (p_text n) ->
  fst (text_of is_punct p) = Panic PRuntime.
Proof.
  intros R T L. destruct (proj2 (late_panics is_punct text Hp p (new_parser text) R (RNew _ _))) as (q & E); [eauto|].
  destruct (proj1 (panics_only_digits is_punct text p R) q E) as [-> _]. exact E.
Qed.

(** Where Tree has a tree, Text has a value or panics, and panics exactly for a late digit. *)
Lemma late_exact text p1 p2 n : reach is_punct text p1 -> reach is_punct text p2 -> fst (tree is_punct p2) = Ok (Got (Some n)) ->
  (late_digit (p_text n) <-> fst (text_of is_punct p1) = Panic PRuntime) /\
  (~ late_digit (p_text n) <-> exists t, fst (text_of is_punct p1) = Ok (Got (Some t))).
Proof.
  intros R1 R2 T.
  assert (A : late_digit (p_text n) <-> fst (text_of is_punct p1) = Panic PRuntime).
  { split.
    - intro L. destruct (proj2 (late_panics is_punct text Hp p1 p2 R1 R2)) as (q & E); [eauto|].
      destruct (proj1 (panics_only_digits is_punct text p1 R1) q E) as [-> _]. exact E.
    - intro E. destruct (proj1 (late_panics is_punct text Hp p1 p2 R1 R2)) as (m & Tm & L); [eauto|].
      rewrite T in Tm. injection Tm as <-. exact L. }
  split; [exact A|]. split.
  - intro N. pose proof (reach_pinv _ _ _ R1) as I1. pose proof (proj1 (text_ok is_punct text p1 I1)) as S1.
    destruct (text_tree_strong is_punct text p1 p2 R1 R2) as (E1 & E2 & _).
    destruct (fst (text_of is_punct p1)) as [[[t|]|e]|q|] eqn:F; [eauto|congruence| | |inversion S1].
    + destruct (proj1 E1) as (e' & X); [eauto|]. rewrite T in X. discriminate X.
    + exfalso. apply N. apply A. destruct (proj1 (panics_only_digits is_punct text p1 R1) q F) as [-> _]. reflexivity.
  - intros (t & E) L. apply A in L. congruence.
Qed.

Variable U : unicode.

Lemma late_post input n : fst (tree is_punct (new_parser input)) = Ok (Got (Some n)) -> late_digit (p_text n) ->
  answers is_punct U input (Panic PRuntime).
Proof.
  intros T L. assert (R : reach is_punct input (snd (tree is_punct (new_parser input)))) by apply RTree, RNew.
  pose proof (late_runtime _ _ _ R T L) as E. split; [discriminate|]. exists 0. intros fuel _. unfold post.
  destruct (tree is_punct (new_parser input)) as [x p1]. cbn [fst snd] in *. subst x.
  destruct (text_of is_punct p1) as [y p2]. cbn [fst] in E. subst y. reflexivity.
Qed.

Lemma late_main path input n : fst (tree is_punct (new_parser input)) = Ok (Got (Some n)) -> late_digit (p_text n) ->
  runs is_punct U path input (""%string, Died PRuntime).
Proof.
  intros T L. assert (R : reach is_punct input (snd (tree is_punct (new_parser input)))) by apply RTree, RNew.
  pose proof (late_runtime _ _ _ R T L) as E. split; [discriminate|]. exists 0. intros fuel _. unfold main.
  destruct (tree is_punct (new_parser input)) as [x p1]. cbn [fst snd] in *. subst x.
  destruct (text_of is_punct p1) as [y p2]. cbn [fst] in E. subst y. reflexivity.
Qed.

Lemma late_bot m x n : asked U m x -> fst (tree is_punct (new_parser x)) = Ok (Got (Some n)) -> late_digit (p_text n) ->
  replies is_punct U m (Panic PRuntime).
Proof.
  intros A T L. pose proof (late_runtime _ _ _ (RNew _ _) T L) as E. split; [discriminate|]. exists 0. intros fuel _.
  unfold on_message. destruct (asked_or_not U m) as [[P N]|(P & _ & N)]; [contradiction (N x A)|].
  rewrite P. unfold bot_parse. rewrite <- (N x A).
  destruct (text_of is_punct (new_parser x)) as [y p2]. cbn [fst] in E. subst y. reflexivity.
Qed.
End Api.

Lemma ascii_plain : punct_plain ascii_punct.
Proof.
  assert (X : forallb (fun r => negb (plain_letter r) && negb (tone_digit r))
    (map (fun c => N_of_ascii c) (list_ascii_of_string "!""#%&'()*,-./:;?@[\]_{}")) = true) by (vm_compute; reflexivity).
  intros r H. unfold ascii_punct in H. apply mem_rune_In in H. rename H into I.
  rewrite forallb_forall in X. specialize (X r I). apply andb_prop in X. destruct X as [A B]. apply negb_true_iff in A, B. auto.
Qed.

(* the digit after two letters; digits after one letter and before the second *)
Lemma late_case :
  (exists n, fst (tree ascii_punct (new_parser "jai4 ji/")) = Ok (Got (Some n)) /\ late_digit (p_text n)) /\
  (exists n, fst (tree ascii_punct (new_parser "pu4a ji2")) = Ok (Got (Some n)) /\ ~ late_digit (p_text n)).
Proof.
  split; (eexists; split; [vm_compute; reflexivity|]).
  - exists [106%N], 97%N, 105%N, 52%N, [32; 106; 105; 47]%N. vm_compute. auto.
  - refine (proj2 (proj2 (late_exact ascii_punct ascii_plain "pu4a ji2" _ _ _ (RNew _ _) (RNew _ _) _)) _); [vm_compute; reflexivity|].
    eexists. vm_compute. reflexivity.
Qed.
