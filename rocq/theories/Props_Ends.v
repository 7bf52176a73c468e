(** Properties C30, C39, C40, C46, C55 and C56 of texts with clauses: everything returns.
    The sentences are well sorted (C19), supported (C30) and [covered] (Clauses.v); missing are
    hi before a predicate, mi, and anything but words in serial predicates. *)

From Coq Require Import String NArith List.
From Verif Require Import Base PegSyntax Tone Ast AstSorts AstCases Parser ParserSpec Logic LogicWords LogicSpec LogicString LogicApi LogicCases ScopeSpec
  App AppSpec AppApi Main MainSpec Meaning Clauses Truth ClauseTotal ClauseApps.
From Verif Require Shown FuncWords.
Import ListNotations.
Open Scope string_scope.
Open Scope list_scope.
Open Scope nat_scope.

(** C30.  Interpret returns a tree, and String and PrettyString of the tree return. *)
Theorem C30_covered_partial :
  forall is_punct text p lead d U, reach is_punct text p ->
    fst (text_of is_punct p) = Ok (Got (Some (NText lead d))) ->
    (forall n, In n d -> is_sentence n = true ->
       well_sorted n = true /\ supported U n = true /\ covered U (o_letters diacritic) n = true) ->
    exists t, outcome U d (Ok t) /\
      exists f0, forall keys pretty f, f0 <= f -> exists s, print U keys pretty f t = Ok s.
Proof. exact covered_text_returns. Qed.
Print Assumptions C30_covered_partial.

(** Supported are, in a parsed text, all sentences with connectives ru, ra, ri, between
    arguments roi, between sentences ru (FuncWords.v, [connected]). *)
Theorem C30_connected_covered_partial :
  forall is_punct text p lead d U, reach is_punct text p ->
    fst (text_of is_punct p) = Ok (Got (Some (NText lead d))) ->
    FuncWords.letters_no_punct is_punct -> Shown.plain_unicode U ->
    (forall n, In n d -> is_sentence n = true ->
       well_sorted n = true /\ FuncWords.connected n = true /\ covered U (o_letters diacritic) n = true) ->
    exists t, outcome U d (Ok t) /\
      exists f0, forall keys pretty f, f0 <= f -> exists s, print U keys pretty f t = Ok s.
Proof. exact connected_covered_returns. Qed.
Print Assumptions C30_connected_covered_partial.

Example C30_covered_case : exists lead d,
  fst (text_of ascii_punct (new_parser clause_text)) = Ok (Got (Some (NText lead d))) /\ has_sentence d /\
  forall n, In n d -> is_sentence n = true ->
    well_sorted n = true /\ supported ascii_unicode n = true /\ covered ascii_unicode (o_letters diacritic) n = true.
Proof. exact clause_case. Qed.
Example C30_connected_covered_case : exists lead d,
  fst (text_of ascii_punct (new_parser clause_text)) = Ok (Got (Some (NText lead d))) /\ has_sentence d /\
  forall n, In n d -> is_sentence n = true ->
    well_sorted n = true /\ FuncWords.connected n = true /\ covered ascii_unicode (o_letters diacritic) n = true.
Proof. exact connected_clause_case. Qed.
Example C30_covered_output : logic_string clause_text = Ok clause_output.
Proof. exact clause_logic. Qed.

(** C39.  The server answers, and says "fragment" only if there is no sentence. *)
Theorem C39_covered_partial :
  forall is_punct U input, no_digits input ->
    (forall lead d, fst (text_of is_punct (new_parser input)) = Ok (Got (Some (NText lead d))) ->
      forall n, In n d -> is_sentence n = true ->
        well_sorted n = true /\ supported U n = true /\ covered U (o_letters diacritic) n = true) ->
    (exists m, answers is_punct U input (Ok (RError m))) \/
    exists a lead d, answers is_punct U input (Ok (RFull a)) /\ a_ast a = NText lead d /\
      (a_logic a = "fragment" <-> ~ has_sentence d).
Proof. exact clause_answers. Qed.
Print Assumptions C39_covered_partial.

(** C40.  The bot replies if it is asked. *)
Theorem C40_covered_partial :
  forall is_punct U m, (forall x, asked U m x -> no_digits x /\
      forall lead d, fst (text_of is_punct (new_parser x)) = Ok (Got (Some (NText lead d))) ->
      forall n, In n d -> is_sentence n = true ->
        well_sorted n = true /\ supported U n = true /\ covered U (o_letters diacritic) n = true) ->
    exists o, replies is_punct U m (Ok o) /\ (o = None <-> forall x, ~ asked U m x).
Proof. exact clause_replies. Qed.
Print Assumptions C40_covered_partial.

Example C40_covered_case : exists lead d,
  fst (text_of ascii_punct (new_parser clause_text)) = Ok (Got (Some (NText lead d))) /\ has_sentence d /\
  (forall lead d, fst (text_of ascii_punct (new_parser clause_text)) = Ok (Got (Some (NText lead d))) ->
    forall n, In n d -> is_sentence n = true ->
      well_sorted n = true /\ supported ascii_unicode n = true /\ covered ascii_unicode (o_letters diacritic) n = true) /\
  no_digits clause_text /\ asked ascii_unicode (Message None (".miu " ++ clause_text)) clause_text.
Proof. exact clause_message. Qed.

(** C46.  The command ends with a status. *)
Theorem C46_covered_partial :
  forall is_punct U path input, no_digits input ->
    (forall lead d, fst (text_of is_punct (new_parser input)) = Ok (Got (Some (NText lead d))) ->
      forall n, In n d -> is_sentence n = true ->
        well_sorted n = true /\ supported U n = true /\ covered U (o_letters diacritic) n = true) ->
    exists out n, runs is_punct U path input (out, Exit n).
Proof. exact clause_main_ends. Qed.
Print Assumptions C46_covered_partial.

(** C55.  Every such text with a sentence has one meaning, and Interpret returns it. *)
Theorem C55_text_partial :
  forall is_punct text p lead d U, reach is_punct text p ->
    fst (text_of is_punct p) = Ok (Got (Some (NText lead d))) ->
    (forall n, In n d -> is_sentence n = true ->
       well_sorted n = true /\ supported U n = true /\ covered U (o_letters diacritic) n = true) ->
    has_sentence d ->
    exists F, (forall F', conveys U (o_letters diacritic) d F' <-> F' = F) /\
      exists r h bn name s, outcome U d (Ok (Some (r, h))) /\ shows h bn name r F /\
        (forall x y, is_binding h x = true -> is_binding h y = true -> bn x = bn y -> x = y) /\
        (forall x y, unbound h x = true -> unbound h y = true -> name x = name y -> x = y) /\
        prints U (Some (r, h)) s.
Proof. exact text_conveys. Qed.
Print Assumptions C55_text_partial.

(** C56.  It says one thing literally, and where simplification is right ([tame], and variables
    occur only in the scope of what binds them) Interpret returns a formula that says it. *)
Theorem C56_text_partial :
  forall is_punct text p lead d U, reach is_punct text p ->
    fst (text_of is_punct p) = Ok (Got (Some (NText lead d))) ->
    (forall n, In n d -> is_sentence n = true ->
       well_sorted n = true /\ supported U n = true /\ covered U (o_letters diacritic) n = true) ->
    has_sentence d ->
    exists G, (forall G', literally U (o_letters diacritic) d G' <-> G' = G) /\
      (tame G = true -> apart (loose G) (binders G) = true ->
       exists F r h bn name s, outcome U d (Ok (Some (r, h))) /\ shows h bn name r F /\
         (forall x y, is_binding h x = true -> is_binding h y = true -> bn x = bn y -> x = y) /\
         (forall x y, unbound h x = true -> unbound h y = true -> name x = name y -> x = y) /\
         prints U (Some (r, h)) s /\ equivalent F G).
Proof. exact text_truth. Qed.
Print Assumptions C56_text_partial.
