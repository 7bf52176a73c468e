(** Properties of the command line program: C45, C46, C47. *)

From Coq Require Import String NArith List.
From Verif Require Import Base PegSyntax Peg Ast AstSorts Parser ParserSpec VisitSpec Tone LogicWords LogicSpec LogicString LogicApi LogicSafe AstCases LogicCases
  ScopeSpec ScopeCases App AppSpec AppTotal Dedup Pretty Main MainSpec MainApi DumpApi MainCases.
Import ListNotations.
Open Scope string_scope.

(** C45.  Status 1, the deduplicated error tree and the message, exactly if the text does
    not parse.  There is no third status. *)
Theorem C45_error :
  forall is_punct U path input out, runs is_punct U path input (out, Exit 1) <->
    exists e, fst (tree is_punct (new_parser input)) = Ok (Err e) /\
      out = line (pretty_fail "" (dedup (pe_tree e))) ++ line (path ++ error_string e).
Proof. exact main_error. Qed.
Print Assumptions C45_error.

Theorem C45_status :
  forall is_punct U path input out n, runs is_punct U path input (out, Exit n) -> n = 0 \/ n = 1.
Proof. exact main_status. Qed.
Print Assumptions C45_status.

Example C45_case : exists tree, runs ascii_punct ascii_unicode "a.toaq" "hao? ji" ("full_text[0]{" ++ tree ++ error_report, Exit 1).
Proof. exact error_case. Qed.

(** C46.  False: these texts parse, and the program panics, or never ends. *)
Theorem C46_crash_refuted : runs ascii_punct ascii_unicode "" "dai4" ("", Died PRuntime).
Proof. exact main_crashes. Qed.
Print Assumptions C46_crash_refuted.

Theorem C46_panic_refuted : exists out, runs ascii_punct ascii_unicode "" "gi? ro hui?" (out, Died (PString "impossible: ro")).
Proof. exact main_panics. Qed.
Print Assumptions C46_panic_refuted.

Theorem C46_hangs_refuted : exists text, forall x, ~ runs ascii_punct ascii_unicode "" text x.
Proof. exact main_hangs. Qed.
Print Assumptions C46_hangs_refuted.

(** What holds: if it ends with status 0, it has written these. *)
Theorem C46_full :
  forall is_punct U path input out, runs is_punct U path input (out, Exit 0) <->
    exists t lead d l,
      fst (tree is_punct (new_parser input)) = Ok (Got (Some t)) /\
      fst (text_of is_punct (new_parser input)) = Ok (Got (Some (NText lead d))) /\
      logic_part U d l /\ out = syntax_part t (NText lead d) ++ l.
Proof. exact main_full. Qed.
Print Assumptions C46_full.

(** When it panics.  The panic(err) of main.go:48 is unreachable. *)
Theorem C46_panic_partial :
  forall is_punct U path input out q, runs is_punct U path input (out, Died q) ->
    (q = PRuntime /\ out = "" /\ ~ no_digits input) \/
    exists t lead d l,
      fst (tree is_punct (new_parser input)) = Ok (Got (Some t)) /\
      fst (text_of is_punct (new_parser input)) = Ok (Got (Some (NText lead d))) /\
      out = syntax_part t (NText lead d) ++ l /\
      (outcome U d (Panic q) \/ exists st, outcome U d (Ok (Some st)) /\ finally (fun fuel => string_ U fuel (Some st)) (Panic q)).
Proof. exact main_died. Qed.
Print Assumptions C46_panic_partial.

(** It does not on supported sentences (C30) without digits. *)
Theorem C46_supported_partial :
  forall is_punct U path input, no_digits input ->
    (forall lead d, fst (text_of is_punct (new_parser input)) = Ok (Got (Some (NText lead d))) ->
      forall n, In n d -> is_sentence n = true -> well_sorted n = true /\ supported U n = true) ->
    forall out q, ~ runs is_punct U path input (out, Died q).
Proof. exact main_supported. Qed.
Print Assumptions C46_supported_partial.

(** And it ends with a status on first-order sentences (C30). *)
Theorem C46_first_order_partial :
  forall is_punct U path input, no_digits input ->
    (forall lead d, fst (text_of is_punct (new_parser input)) = Ok (Got (Some (NText lead d))) ->
      forall n, In n d -> is_sentence n = true ->
        well_sorted n = true /\ supported U n = true /\ first_order U (o_letters diacritic) n = true) ->
    exists out n, runs is_punct U path input (out, Exit n).
Proof. exact main_ends. Qed.
Print Assumptions C46_first_order_partial.

Example C46_case : exists tree, runs ascii_punct ascii_unicode "a.toaq" "hao? ji/ " ("full_text{" ++ tree ++ full_report, Exit 0).
Proof. exact full_case. Qed.

Example C46_case_first_order : exists lead d,
  fst (text_of ascii_punct (new_parser total_text)) = Ok (Got (Some (NText lead d))) /\ has_sentence d /\
  plain_sentences ascii_punct ascii_unicode total_text /\ no_digits total_text.
Proof. exact plain_case. Qed.

(** C47.  The AST shown is the same exactly if the trees are, but for positions and
    modifiers. *)
Theorem C47_dump :
  forall is_punct text text' p p' n n', reach is_punct text p -> reach is_punct text' p' ->
    fst (text_of is_punct p) = Ok (Got (Some n)) -> fst (text_of is_punct p') = Ok (Got (Some n')) ->
    one_line text -> one_line text' ->
    (pretty_value (node_value n) = pretty_value (node_value n') <-> bare n = bare n').
Proof. exact dump_inj. Qed.
Print Assumptions C47_dump.

Example C47_case : exists n n' n'' s s',
  dumped "hao? ji/ " s n /\ dumped "hao?, ji/!" s n' /\ dumped "hao? suq/ " s' n'' /\ n <> n' /\ bare n = bare n' /\ s <> s'.
Proof. exact dump_case. Qed.
