(** Property C52, and what follows from it for C30.  [function_words n] are the function
    words of a tree with the groups of their places (FuncWords.v). *)

From Coq Require Import String NArith List.
From Verif Require Import Base PegSyntax Tone Ast AstSorts Parser ParserSpec Logic LogicWords LogicSpec LogicString LogicApi LogicSafe ScopeSpec ScopeCases
  Shown FuncWords FuncTree FuncSupport.
Import ListNotations.
Open Scope string_scope.
Open Scope list_scope.
Open Scope nat_scope.

(** C52.  In modifiers too.  In particular no parsed tree has a PrefixedPredicate, and no
    Interjection is m. *)
Theorem C52_groups :
  forall is_punct text p n, letters_no_punct is_punct -> reach is_punct text p ->
    fst (text_of is_punct p) = Ok (Got (Some n)) ->
    forall g s, In (g, s) (function_words n) -> of_group g s.
Proof. exact text_groups. Qed.
Print Assumptions C52_groups.

(** So whether Interpret supports a sentence (C30) depends on its connectives only. *)
Theorem C52_supported :
  forall is_punct text p lead d U, letters_no_punct is_punct -> plain_unicode U -> reach is_punct text p ->
    fst (text_of is_punct p) = Ok (Got (Some (NText lead d))) ->
    forall n, In n d -> supported U n = connected n.
Proof. exact text_supported. Qed.
Print Assumptions C52_supported.

Example C52_case : exists n, fst (text_of ascii_punct (new_parser words_text)) = Ok (Got (Some n)) /\
  function_words n =
    [(GKeo, "Je"); (GKu, "kU"); (GTu, "sIa"); (GBi, "bı"); (GBei, "beI"); (GDa, "da");
     (GKeo, "keo"); (GTu, "ke"); (GBi, "bı"); (GTo, "to"); (GRa, "ru"); (GTo, "to"); (GGo, "fı"); (GKio, "kıo"); (GKi, "kı"); (GNa, "na"); (GDa, "moq");
     (GPo, "pỏ"); (GGa, "ga"); (GHu, "hu"); (GDa, "da"); (GMo, "mỏ"); (GTeo, "teo"); (GJu, "ju"); (GDa, "da"); (GMi, "Shủ"); (GGa, "ga"); (GRa, "roı"); (GLu, "lú"); (GNa, "na")].
Proof. exact words_case. Qed.
Example C52_case_punct : letters_no_punct ascii_punct.
Proof. exact ascii_no_punct. Qed.

(** C30.  On well-sorted sentences (C19) with connectives that Interpret supports, neither
    Interpret nor String nor PrettyString panics. *)
Theorem C30_connected_partial :
  forall is_punct text p lead d U, letters_no_punct is_punct -> plain_unicode U -> reach is_punct text p ->
    fst (text_of is_punct p) = Ok (Got (Some (NText lead d))) ->
    (forall n, In n d -> is_sentence n = true -> well_sorted n = true /\ connected n = true) ->
    (forall q, ~ outcome U d (Panic q)) /\
    forall t, outcome U d (Ok t) -> forall keys pretty fuel q, print U keys pretty fuel t <> Panic q.
Proof. exact connected_no_panic. Qed.
Print Assumptions C30_connected_partial.

Example C30_connected_case : exists lead d, fst (text_of ascii_punct (new_parser supported_text)) = Ok (Got (Some (NText lead d))) /\ has_sentence d /\
  forall n, In n d -> is_sentence n = true -> well_sorted n = true /\ connected n = true.
Proof. exact connected_case. Qed.

(** If they are first-order sentences, all of them return. *)
Theorem C30_connected_first_order_partial :
  forall is_punct text p lead d U, letters_no_punct is_punct -> plain_unicode U -> reach is_punct text p ->
    fst (text_of is_punct p) = Ok (Got (Some (NText lead d))) ->
    (forall n, In n d -> is_sentence n = true ->
       well_sorted n = true /\ connected n = true /\ first_order U (o_letters diacritic) n = true) ->
    exists t, outcome U d (Ok t) /\
      exists f0, forall keys pretty f, f0 <= f -> exists s, print U keys pretty f t = Ok s.
Proof. exact connected_returns. Qed.
Print Assumptions C30_connected_first_order_partial.

Example C30_connected_first_order_case : exists lead d,
  fst (text_of ascii_punct (new_parser total_text)) = Ok (Got (Some (NText lead d))) /\ has_sentence d /\
  forall n, In n d -> is_sentence n = true ->
    well_sorted n = true /\ connected n = true /\ first_order ascii_unicode (o_letters diacritic) n = true.
Proof. exact connected_total_case. Qed.
