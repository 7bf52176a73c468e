(** The AST shown by main.go, for parsed texts: C47. *)

From Coq Require Import String Ascii NArith List Bool Arith Lia.
From Verif Require Import Base Utf8 Utf8Facts PegSyntax Peg Ast AstSorts Parser ParserSpec SortApi VisitSpec TileSpec SpellSpec SpellFacts AstCases App Pretty Main MainSpec PrettyFacts DumpFacts.
Import ListNotations.
Open Scope string_scope.
Open Scope list_scope.
Open Scope nat_scope.

(** ** Newlines among the bytes and among the characters *)

Notation bytes := list_ascii_of_string.

Lemma in_drop c n s : In c (bytes (sdrop n s)) -> In c (bytes s).
Proof. revert n. induction s as [|d s IH]; intros [|n] H; cbn in *; try assumption. right. exact (IH _ H). Qed.
Lemma in_take c n s : In c (bytes (stake n s)) -> In c (bytes s).
Proof. revert n. induction s as [|d s IH]; intros [|n] H; cbn in *; try contradiction. destruct H as [->|H]; [auto|right; exact (IH _ H)]. Qed.

Lemma cont_not_nl a : is_cont (byte_of a) = true -> a <> nl.
Proof. intros H ->. discriminate H. Qed.

Lemma nl_rune s : In nl (bytes s) -> In 10%N (runes s).
Proof.
  induction s as [|s N IH] using runes_ind; [intros []|]. rewrite (runes_cons s N). intros H.
  destruct (in_dec ascii_dec nl (bytes (sdrop (snd (decode_rune s)) s))) as [Y|F]; [right; auto|]. clear IH. left.
  destruct s as [|a0 s]; [congruence|]. unfold decode_rune in *.
  destruct (byte_of a0 <? 128)%N eqn:E.
  { cbn [fst snd sdrop] in *. destruct H as [->|H]; [reflexivity|contradiction]. }
  assert (A0 : a0 <> nl) by (intros ->; discriminate E). destruct H as [->|H]; [congruence|]. exfalso.
  destruct (in_range 194 223 (byte_of a0)).
  { destruct s as [|a1 s]; [destruct H|]. destruct (is_cont (byte_of a1)) eqn:C; cbn [fst snd sdrop] in F; [|contradiction].
    apply cont_not_nl in C. destruct H as [->|H]; [congruence|contradiction]. }
  destruct (in_range 224 239 (byte_of a0)).
  { destruct s as [|a1 [|a2 s]]; [destruct H|cbn [fst snd sdrop] in F; contradiction|].
    destruct (second_ok (byte_of a0) (byte_of a1) && is_cont (byte_of a2)) eqn:C; cbn [fst snd sdrop] in F; [|contradiction].
    apply andb_prop in C. destruct C as [C1 C2]. apply second_ok_cont, cont_not_nl in C1. apply cont_not_nl in C2.
    destruct H as [->|[->|H]]; [congruence|congruence|contradiction]. }
  destruct (in_range 240 244 (byte_of a0)).
  { destruct s as [|a1 [|a2 [|a3 s]]]; [destruct H|cbn [fst snd sdrop] in F; contradiction|cbn [fst snd sdrop] in F; contradiction|].
    destruct (second_ok (byte_of a0) (byte_of a1) && is_cont (byte_of a2) && is_cont (byte_of a3)) eqn:C; cbn [fst snd sdrop] in F; [|contradiction].
    apply andb_prop in C. destruct C as [C C3]. apply andb_prop in C. destruct C as [C1 C2]. apply second_ok_cont, cont_not_nl in C1. apply cont_not_nl in C2, C3.
    destruct H as [->|[->|[->|H]]]; [congruence|congruence|congruence|contradiction]. }
  cbn [fst snd sdrop] in F. contradiction.
Qed.

Lemma rune_nl s : In 10%N (runes s) -> In nl (bytes s).
Proof.
  induction s as [|s N IH] using runes_ind; [intros []|]. rewrite (runes_cons s N). intros [H|H].
  - rewrite (decode_inv s N) by (rewrite H; discriminate). rewrite H. left. reflexivity.
  - eapply in_drop, IH, H.
Qed.

Lemma letter_nl r : In 10%N (letter_of r) -> r = 10%N.
Proof.
  unfold letter_of. destruct (find_toned r) as [[[a l] t]|] eqn:E.
  - intros [->|[]]. exfalso. unfold find_toned in E. apply find_some in E. destruct E as [I _]. revert I. clear.
    assert (K : forallb (fun x => negb (N.eqb (snd (fst x)) 10)) toned_vowels = true) by (vm_compute; reflexivity). rewrite forallb_forall in K.
    intros I. apply K in I. discriminate I.
  - destruct (find_sign r); [intros []|]. destruct (N.eqb r 105); intros [H|[]]; [discriminate H|exact H].
Qed.
Lemma letters_nl s : In 10%N (letters s) <-> In 10%N (runes s).
Proof.
  unfold letters. rewrite in_flat_map. split.
  - intros (r & I & H). apply letter_nl in H. subst r. exact I.
  - intros H. exists 10%N. split; [exact H|]. vm_compute. auto.
Qed.

Lemma spelled_line is_punct text t : one_line text -> word_spelled is_punct text t -> no_char nl (fst (fst t)).
Proof.
  intros O W I. apply O. fold nl. destruct W as [[E _]|(E & _ & _)].
  - change (fst (fst t)) with (t_text t) in I. rewrite E in I. unfold slice in I. apply in_take, in_drop in I. exact I.
  - change (fst (fst t)) with (t_text t) in I. apply nl_rune, letters_nl in I. rewrite E in I. apply letters_nl, rune_nl in I.
    unfold slice in I. apply in_take, in_drop in I. exact I.
Qed.

(** ** Parsed texts *)

Lemma parsed_legible is_punct text p n : reach is_punct text p -> fst (text_of is_punct p) = Ok (Got (Some n)) -> one_line text -> legible (node_value n).
Proof.
  intros R X O. destruct (text_sorted is_punct text p n R X) as [_ S]. eapply legible_sorted; [exact S|]. intros w I.
  apply (spelled_line is_punct text (tok w) O). apply (text_spelled is_punct text p n R X). apply in_map, I.
Qed.

Theorem dump_inj is_punct text text' p p' n n' : reach is_punct text p -> reach is_punct text' p' ->
  fst (text_of is_punct p) = Ok (Got (Some n)) -> fst (text_of is_punct p') = Ok (Got (Some n')) -> one_line text -> one_line text' ->
  (pretty_value (node_value n) = pretty_value (node_value n') <-> bare n = bare n').
Proof.
  intros R R' X X' O O'. split.
  - intros E. assert (V : node_value n = node_value n').
    { apply (show_inj (node_value n) "" (node_value n') "" ""); [exact (parsed_legible _ _ _ _ R X O)|exact (parsed_legible _ _ _ _ R' X' O')|left; reflexivity|left; reflexivity|].
      rewrite !app_s_nil. exact E. }
    destruct (text_sorted is_punct text p n R X) as [Q S]. destruct (text_sorted is_punct text' p' n' R' X') as [Q' S'].
    assert (N : forall k b, ~ In SDiscourse (real_left k b) /\ ~ In SDiscourse (real_right k)) by (intros k b; destruct k, b; vm_compute; intuition discriminate).
    eapply (inj_all real_left real_right); [intros k b; apply (N k b)|intros k; apply (N k true)| | |exact V].
    + split; [exact S|rewrite Q; discriminate].
    + split; [exact S'|rewrite Q'; discriminate].
  - intros E. unfold pretty_value. rewrite <- (value_bare n), <- (value_bare n'), E. reflexivity.
Qed.
