(** Every first-order text has one meaning, which Interpret returns. *)

From Coq Require Import String NArith List.
From Verif Require Import Base PegSyntax Tone Ast AstSorts Parser Logic LogicWords LogicSpec LogicApi LogicString ScopeSpec ScopeTotal AppTotal Meaning MeaningOne MeaningApi.
Import ListNotations.

Theorem text_means is_punct text p lead d U : reach is_punct text p ->
  fst (text_of is_punct p) = Ok (Got (Some (NText lead d))) ->
  (forall n, In n d -> is_sentence n = true ->
     well_sorted n = true /\ supported U n = true /\ first_order U (o_letters diacritic) n = true) ->
  has_sentence d ->
  exists F, (forall F', means U (o_letters diacritic) d F' <-> F' = F) /\
    exists r h name, outcome U d (Ok (Some (r, h))) /\ reads h name [] r F /\
      forall x y, unbound h x = true -> unbound h y = true -> name x = name y -> x = y.
Proof.
  intros R T Fo S. destruct (text_returns _ _ _ _ _ _ R T Fo) as (t & O & _). destruct t as [[r h]|]; [|apply outcome_nil in O; destruct (proj1 O eq_refl S)].
  destruct (first_order_means _ _ _ _ O) as (F & name & M & Re & Inj).
  { intros n I J. apply Fo; [exact I|]. apply item_sentence, J. }
  exists F. split; [|exists r, h, name; auto]. intros F'. split; [intros M'; eapply means_one; eassumption|intros ->; exact M].
Qed.
