(** The report of a syntax error: C57. *)

From Coq Require Import String NArith List.
From Verif Require Import Base PegSyntax Peg Ast Parser AstCases LogicCases LogicWords LogicSpec LogicApi Tone App Main MainSpec MainCases Dedup Report ReportFacts ReportLabels ReportCases.
Import ListNotations.
Open Scope string_scope.

(** C57.  Two runs on rejected texts write the same exactly if what failed, within what and
    where, and the messages are the same: the report leaves nothing of the tree out. *)
Theorem C57_report :
  forall is_punct is_punct' U U' path input input' out out' e e',
    runs is_punct U path input (out, Exit 1) -> runs is_punct' U' path input' (out', Exit 1) ->
    fst (tree is_punct (new_parser input)) = Ok (Err e) -> fst (tree is_punct' (new_parser input')) = Ok (Err e') ->
    (out = out' <-> failure_of (dedup (pe_tree e)) = failure_of (dedup (pe_tree e')) /\ error_string e = error_string e').
Proof. exact report_inj. Qed.
Print Assumptions C57_report.

(** The tree alone, on a line of its own and at any indentation, for any tree whose labels
    do not contain the characters of the notation. *)
Theorem C57_tree :
  forall tab n m r r', readable n = true -> readable m = true ->
    pretty_fail tab n ++ newline ++ r = pretty_fail tab m ++ newline ++ r' -> failure_of n = failure_of m /\ r = r'.
Proof. exact (fun tab n m r r' N M E => report_reads n tab m "" r r' N M (or_introl eq_refl) E). Qed.
Print Assumptions C57_tree.

Theorem C57_readable :
  forall is_punct input e, fst (tree is_punct (new_parser input)) = Ok (Err e) -> readable (dedup (pe_tree e)) = true.
Proof. exact error_readable. Qed.
Print Assumptions C57_readable.

Example C57_case : exists out out',
  runs ascii_punct ascii_unicode "a" "hao? ji" (out, Exit 1) /\ runs ascii_punct ascii_unicode "a" "hua? ji" (out, Exit 1) /\
  runs ascii_punct ascii_unicode "a" "hao? ju" (out', Exit 1) /\ out <> out'.
Proof. exact report_case. Qed.
