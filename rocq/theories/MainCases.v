(** Cases for C45-C47. *)

From Coq Require Import String NArith List.
From Verif Require Import Base PegSyntax Peg Ast Parser ParserSpec Logic LogicWords LogicSpec LogicString LogicApi AstCases LogicCases App AppSpec AppApi AppTotal ScopeSpec ScopeCases Tone Pretty Main MainSpec MainApi DumpApi.
Import ListNotations.
Open Scope string_scope.

Definition error_report : string :=
"}
a.toaq:1.8: want ◌̉, [?4], [qQ], [aA], [uU], [oO], [eE], ◌̂, [5\^], ◌́, [/2], ◌̃, [~7], ◌̀, [\\6], ◌̌, ◌̆, or [V3]; got EOF
".
Lemma error_case : exists tree, runs ascii_punct ascii_unicode "a.toaq" "hao? ji" ("full_text[0]{" ++ tree ++ error_report, Exit 1).
Proof.
  destruct (main ascii_punct ascii_unicode 0 "a.toaq" "hao? ji") as [[o e]| |] eqn:E; try (vm_compute in E; discriminate E).
  exists (substring 13 (String.length o - (13 + String.length error_report)) o).
  assert (Q : main ascii_punct ascii_unicode 0 "a.toaq" "hao? ji" = Ok ("full_text[0]{" ++ substring 13 (String.length o - (13 + String.length error_report)) o ++ error_report, Exit 1)).
  { rewrite E. vm_compute in E. injection E as <- <-. vm_compute. reflexivity. }
  exact (runs_at _ _ _ _ _ _ Q).
Qed.

Definition full_report : string :=
"Text{
	Leading: nil
	Discourse: [
		StatementSentence{
			JE: nil
			Statement: Predication{
				Predicate: WordPredicate(""hảo"")
				Terms: [
					PredicateArgument{
						Focus: nil
						Quantifier: nil
						Predicate: WordPredicate(""jí"")
						Relative: nil
					}
				]
				NA: nil
			}
			DA: nil
		}
	]
}
hảo jí 
(hảo jí)
Binding{
	Quantifier: ""ι""
	N: 0
	Focus: false
	Restriction: Predication{
		Predicate: ""ji""
		Arguments: [
			Variable(0)
		]
		AST: nil
	}
	Scope: Predication{
		Predicate: ""hao""
		Arguments: [
			Variable(0)
		]
		AST: nil
	}
	AST: nil
}
[ιJ : ji(J)] hao(J).
".

Lemma full_case : exists tree, runs ascii_punct ascii_unicode "a.toaq" "hao? ji/ " ("full_text{" ++ tree ++ full_report, Exit 0).
Proof.
  destruct (main ascii_punct ascii_unicode 60 "a.toaq" "hao? ji/ ") as [[o e]| |] eqn:E; try (vm_compute in E; discriminate E).
  exists (substring 10 (String.length o - (10 + String.length full_report)) o).
  assert (Q : main ascii_punct ascii_unicode 60 "a.toaq" "hao? ji/ " = Ok ("full_text{" ++ substring 10 (String.length o - (10 + String.length full_report)) o ++ full_report, Exit 0)).
  { rewrite E. vm_compute in E. injection E as <- <-. vm_compute. reflexivity. }
  exact (runs_at _ _ _ _ _ _ Q).
Qed.

Lemma fragment_case : exists out, runs ascii_punct ascii_unicode "" "ji/" (out, Exit 0).
Proof. eexists. apply (runs_at _ _ _ 40). vm_compute. reflexivity. Qed.

Definition dumped (text dump : string) (n : node) : Prop :=
  fst (text_of ascii_punct (new_parser text)) = Ok (Got (Some n)) /\ one_line text /\ pretty_value (node_value n) = dump.

(** Two texts with different separators are shown alike, and another predicate is not. *)
Lemma dump_case : exists n n' n'' s s',
  dumped "hao? ji/ " s n /\ dumped "hao?, ji/!" s n' /\ dumped "hao? suq/ " s' n'' /\ n <> n' /\ bare n = bare n' /\ s <> s'.
Proof.
  assert (O : forall t, forallb (fun c => negb (Ascii.eqb c (Ascii.ascii_of_nat 10))) (list_ascii_of_string t) = true -> one_line t).
  { intros t F I. rewrite forallb_forall in F. apply F in I. rewrite Ascii.eqb_refl in I. discriminate I. }
  assert (D : forall t n, fst (text_of ascii_punct (new_parser t)) = Ok (Got (Some n)) -> forallb (fun c => negb (Ascii.eqb c (Ascii.ascii_of_nat 10))) (list_ascii_of_string t) = true ->
    dumped t (pretty_value (node_value n)) n).
  { intros t n X F. split; [exact X|]. split; [apply O, F|reflexivity]. }
  destruct (fst (text_of ascii_punct (new_parser "hao? ji/ "))) as [[[n|]|]| |] eqn:E; try (vm_compute in E; discriminate E).
  destruct (fst (text_of ascii_punct (new_parser "hao?, ji/!"))) as [[[n'|]|]| |] eqn:E'; try (vm_compute in E'; discriminate E').
  destruct (fst (text_of ascii_punct (new_parser "hao? suq/ "))) as [[[n''|]|]| |] eqn:E''; try (vm_compute in E''; discriminate E'').
  apply D in E, E', E''; try reflexivity.
  assert (Q := proj1 E). assert (Q' := proj1 E'). assert (Q'' := proj1 E''). vm_compute in Q, Q', Q''. injection Q as Q. injection Q' as Q'. injection Q'' as Q''.
  exists n, n', n'', (pretty_value (node_value n)), (pretty_value (node_value n'')). split; [exact E|]. split.
  - replace (pretty_value (node_value n)) with (pretty_value (node_value n')); [exact E'|]. rewrite <- Q, <- Q'. vm_compute. reflexivity.
  - split; [exact E''|]. rewrite <- Q, <- Q', <- Q''. split; [discriminate|]. split; [reflexivity|]. vm_compute. discriminate.
Qed.

Lemma plain_case : exists lead d,
  fst (text_of ascii_punct (new_parser total_text)) = Ok (Got (Some (NText lead d))) /\ has_sentence d /\
  plain_sentences ascii_punct ascii_unicode total_text /\ no_digits total_text.
Proof. destruct total_message as (lead & d & A & B & C & D & _). exists lead, d. auto. Qed.
