(** Cases for C57. *)

From Coq Require Import String NArith List.
From Verif Require Import Base PegSyntax Peg Ast Parser AstCases LogicCases LogicWords LogicSpec Tone Main MainSpec MainApi MainCases Dedup Report.
Import ListNotations.
Open Scope string_scope.

(** Two texts with the same report, and one with another. *)
Lemma report_case : exists out out',
  runs ascii_punct ascii_unicode "a" "hao? ji" (out, Exit 1) /\ runs ascii_punct ascii_unicode "a" "hua? ji" (out, Exit 1) /\
  runs ascii_punct ascii_unicode "a" "hao? ju" (out', Exit 1) /\ out <> out'.
Proof.
  destruct (main ascii_punct ascii_unicode 0 "a" "hao? ji") as [[o x]| |] eqn:E; try (vm_compute in E; discriminate E).
  destruct (main ascii_punct ascii_unicode 0 "a" "hao? ju") as [[o' x']| |] eqn:E'; try (vm_compute in E'; discriminate E').
  assert (X : x = Exit 1) by (vm_compute in E; congruence). assert (X' : x' = Exit 1) by (vm_compute in E'; congruence). subst x x'.
  exists o, o'. split; [exact (runs_at _ _ _ _ _ _ E)|]. split; [|split; [exact (runs_at _ _ _ _ _ _ E')|]].
  - apply (runs_at _ _ _ 0). rewrite <- E. vm_compute. reflexivity.
  - assert (L : match main ascii_punct ascii_unicode 0 "a" "hao? ji", main ascii_punct ascii_unicode 0 "a" "hao? ju" with Ok (o, _), Ok (o', _) => String.eqb o o' | _, _ => true end = false) by (vm_compute; reflexivity).
    rewrite E, E' in L. apply String.eqb_neq, L.
Qed.
