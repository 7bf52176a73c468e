(** Properties of package logic: the rest of C37, and C51.  [predicate_texts n] are the
    texts of the WordPredicates in [n] (WordSpell.v). *)

From Coq Require Import String NArith List Permutation.
From Verif Require Import Base PegSyntax Tone Ast AstSorts Parser ParserSpec AstCases Logic LogicWords LogicSpec LogicString LogicApi LogicCases
  Shown ShownCases WordSpell NameText.
Import ListNotations.
Open Scope string_scope.
Open Scope list_scope.
Open Scope nat_scope.

(** C37.  Of every parsed text: String gives different variables different names. *)
Theorem C37_text :
  forall is_punct text p lead d U r h keys pretty fuel s, reach is_punct text p ->
    fst (text_of is_punct p) = Ok (Got (Some (NText lead d))) -> plain_unicode U ->
    outcome U d (Ok (Some (r, h))) -> (forall ks, Permutation ks (keys ks)) ->
    print U keys pretty fuel (Some (r, h)) = Ok s ->
    exists names body,
      show pretty names h fuel r = Ok body /\
      (forall v v', show_var pretty names v = show_var pretty names v' -> v = v') /\
      match names with Some _ => s = (body ++ ".")%string | None => s = body end.
Proof. exact text_names. Qed.
Print Assumptions C37_text.

(** C51.  Of every discourse, parsed or not. *)
Theorem C51_source :
  forall U d t name, outcome U d (Ok (Some t)) -> In (CPred name) (snd t) ->
    In name ["="; "≺"; "raq"; "chua"] \/
    exists n s, In n d /\ is_sentence n = true /\ In s (predicate_texts n) /\ name = word_pred U s.
Proof. exact outcome_named. Qed.
Print Assumptions C51_source.

(** Of every parsed text: = or ≺ or letters a to z, the first up to x. *)
Theorem C51_letters :
  forall is_punct text p lead d U t name, reach is_punct text p ->
    fst (text_of is_punct p) = Ok (Got (Some (NText lead d))) -> plain_unicode U ->
    outcome U d (Ok (Some t)) -> In (CPred name) (snd t) -> word_name name = true.
Proof. exact text_named. Qed.
Print Assumptions C51_letters.

Example C37_C51_case : exists d t, parses "ji? po? poq/ suq/ maiV hoa/ ji/" d /\ outcome ascii_unicode d (Ok (Some t)) /\
  prints ascii_unicode (Some t) "[ιJ : ji(J)] [ιS : suq(S) ∧ mai(S, J)] [ιP : poq(P)] ji∘{λX raq(X, P)}(S)." /\
  In (CPred "raq") (snd t) /\ In (CPred "poq") (snd t).
Proof. exact named_case. Qed.
