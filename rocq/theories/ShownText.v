(** What String writes for the texts of first-order sentences. *)

From Coq Require Import Ascii String NArith List Bool Arith Lia.
From Verif Require Import Base Utf8 PegSyntax Tone Ast AstSorts AstInd Parser Logic LogicWords LogicSpec ScopeSpec Interp Simplify LogicString LogicFuel LogicApi ScopeTotal AppTotal
  Meaning MeaningOne MeaningApi MeaningText Shown ShownRead ShownApi WordShape WordSpell WordName.
Import ListNotations.
Open Scope string_scope.
Open Scope list_scope.
Open Scope nat_scope.

Lemma flat_in d w : Forall (fun n => forall w, In w (predicate_words n) -> In (w_t w) (predicate_texts n)) d ->
  In w (flat_map predicate_words d) -> In (w_t w) (flat_map predicate_texts d).
Proof. intros F I. apply in_flat_map in I. destruct I as (n & I & W). rewrite Forall_forall in F. apply in_flat_map. exists n. auto. Qed.
Lemma words_texts n : forall w, In w (predicate_words n) -> In (w_t w) (predicate_texts n).
Proof.
  revert n. apply (node_word_ind (fun n => forall w, In w (predicate_words n) -> In (w_t w) (predicate_texts n)) (fun _ => True)); intros; try exact I; cbn [predicate_words predicate_texts] in *; try contradiction.
  all: repeat match goal with o : option _ |- _ => destruct o end; cbn [onO olist] in *; rewrite ?in_app_iff in *; repeat match goal with H : In _ _ \/ In _ _ |- _ => destruct H end; auto using flat_in; try contradiction.
  match goal with H : In _ [_] |- _ => destruct H as [<-|[]] end. left. reflexivity.
Qed.

Lemma parsed_spoken is_punct text p lead d U : reach is_punct text p -> fst (text_of is_punct p) = Ok (Got (Some (NText lead d))) -> plain_unicode U -> spoken U d.
Proof.
  intros R T PU n w I _ W. apply word_like_name; [exact PU|]. eapply text_words; [exact R|exact T|]. cbn [predicate_texts]. apply in_app_iff. right. apply in_flat_map. exists n. split; [exact I|apply words_texts, W].
Qed.

Theorem text_shown is_punct text p lead d U : reach is_punct text p ->
  fst (text_of is_punct p) = Ok (Got (Some (NText lead d))) -> plain_unicode U ->
  (forall n, In n d -> is_sentence n = true ->
     well_sorted n = true /\ supported U n = true /\ first_order U (o_letters diacritic) n = true) ->
  has_sentence d ->
  exists F t s name, means U (o_letters diacritic) d F /\ outcome U d (Ok (Some t)) /\ prints U (Some t) s /\
    apart name F /\ (forall x, var_name (name x) = true) /\ (s = formula_text name F \/ s = (formula_text name F ++ ".")%string).
Proof.
  intros R T PU Fo S. destruct (text_returns _ _ _ _ _ _ R T Fo) as (t & O & f0 & P). destruct t as [t|]; [|apply outcome_nil in O; destruct (proj1 O eq_refl S)].
  assert (Fo' : forall n, In n d -> sentence_item n -> first_order U (o_letters diacritic) n = true) by (intros n I J; apply Fo; [exact I|apply item_sentence, J]).
  destruct t as [r h]. destruct (first_order_means _ _ _ _ O Fo') as (F & _ & M & _). destruct (P (fun ks => ks) false f0 (le_n _)) as (s & E).
  assert (Pr : prints U (Some (r, h)) s).
  { exists f0. intros f L. destruct (le_print U (fun ks => ks) false f0 f (Some (r, h)) L) as [X|X]; [rewrite E in X; discriminate X|]. unfold string_. rewrite <- X. exact E. }
  destruct (shown_as _ _ _ _ _ O (proj1 PU) Fo' (parsed_spoken _ _ _ _ _ _ R T PU) M Pr) as (name & A & V & Q). exists F, (r, h), s, name. auto 7.
Qed.

Theorem text_read ip1 ip2 text1 text2 p1 p2 l1 l2 d1 d2 U t1 t2 F1 F2 s :
  reach ip1 text1 p1 -> fst (text_of ip1 p1) = Ok (Got (Some (NText l1 d1))) ->
  reach ip2 text2 p2 -> fst (text_of ip2 p2) = Ok (Got (Some (NText l2 d2))) -> plain_unicode U ->
  (forall n, In n d1 -> sentence_item n -> first_order U (o_letters diacritic) n = true) ->
  (forall n, In n d2 -> sentence_item n -> first_order U (o_letters diacritic) n = true) ->
  outcome U d1 (Ok (Some t1)) -> outcome U d2 (Ok (Some t2)) ->
  means U (o_letters diacritic) d1 F1 -> means U (o_letters diacritic) d2 F2 ->
  prints U (Some t1) s -> prints U (Some t2) s ->
  exists name1 name2, apart name1 F1 /\ apart name2 F2 /\ shape_of name1 F1 = shape_of name2 F2.
Proof.
  intros R1 T1 R2 T2 PU Fo1 Fo2 O1 O2 M1 M2 P1 P2.
  exact (first_order_read U U d1 d2 t1 t2 F1 F2 s O1 (proj1 PU) Fo1 (parsed_spoken _ _ _ _ _ _ R1 T1 PU) O2 (proj1 PU) Fo2 (parsed_spoken _ _ _ _ _ _ R2 T2 PU) M1 M2 P1 P2).
Qed.
