(** What String writes for concrete texts. *)

From Coq Require Import String NArith List Bool Arith Lia.
From Verif Require Import Base Utf8 PegSyntax Tone Ast AstSorts Parser ParserSpec AstCases Logic LogicWords LogicSpec ScopeSpec Interp Simplify LogicString LogicApi LogicCases ScopeCases
  Meaning MeaningCases Shown ShownRead ShownApi.
Import ListNotations.
Open Scope string_scope.
Open Scope list_scope.
Open Scope nat_scope.

Definition spoken_text (t : string) : bool :=
  match discourse_of t with
  | Some d => forallb (fun n => forallb (fun w => word_name (word_pred ascii_unicode (w_t w))) (predicate_words n)) d
  | None => false
  end.
Lemma spoken_ok t d : parses t d -> spoken_text t = true -> spoken ascii_unicode d.
Proof.
  intros (lead & P). unfold spoken_text. destruct (discourse_of t) as [d'|] eqn:D; [|discriminate]. unfold discourse_of in D. destruct (parsed t) as [n|] eqn:Q; [|discriminate].
  apply parsed_ok in Q. rewrite Q in P. injection P as ->. injection D as <-. intros A n w I _ W. rewrite forallb_forall in A. specialize (A _ I). rewrite forallb_forall in A. exact (A _ W).
Qed.

Lemma ascii_plain : plain_unicode ascii_unicode.
Proof.
  split; [intros r R|intros r R; split]; cbn [ascii_unicode u_upper u_lower u_letter]; unfold in_range; [|reflexivity..].
  destruct (N.leb_spec 97 r), (N.leb_spec r 122); try lia. reflexivity.
Qed.

Lemma shown_case :
  exists d t, parses text d /\ outcome ascii_unicode d (Ok (Some t)) /\
    (forall n, In n d -> sentence_item n -> first_order ascii_unicode (o_letters diacritic) n = true) /\ plain_unicode ascii_unicode /\ spoken ascii_unicode d /\
    means ascii_unicode (o_letters diacritic) d meant /\ prints ascii_unicode (Some t) "[ιS : suq(S)] ∃X [ΛP : poq(P) ∧ mai(P, X)] mai(P, S)." /\
    formula_text (fun x => match x with 2 => "S" | 0 => "X" | _ => "P" end) meant = "[ιS : suq(S)] ∃X [ΛP : poq(P) ∧ mai(P, X)] mai(P, S)".
Proof.
  destruct meaning_case as (d & t & P & O & Pr & Fo & M). exists d, t. repeat match goal with |- _ /\ _ => split end; try assumption; [apply ascii_plain|eapply spoken_ok; [exact P|]; now_vm|reflexivity].
Qed.

Definition atom (s : string) : formula := Holds (Named s) [].
Definition to_left : formula := Both KAnd (Both KAnd (atom "mai") (atom "poq")) (atom "suq").
Definition to_right : formula := Both KAnd (atom "mai") (Both KAnd (atom "poq") (atom "suq")).
Ltac bare_sentence := eapply ISentence; [left; do 3 eexists; reflexivity|apply SStatement; eapply bare_holds; [now_vm|reflexivity|reflexivity|apply (unlinked_placed [])]|].

Lemma associates :
  exists text1 text2 d1 d2 t1 t2 F1 F2 s,
    parses text1 d1 /\ outcome ascii_unicode d1 (Ok (Some t1)) /\ (forall n, In n d1 -> sentence_item n -> first_order ascii_unicode (o_letters diacritic) n = true) /\ spoken ascii_unicode d1 /\
    parses text2 d2 /\ outcome ascii_unicode d2 (Ok (Some t2)) /\ (forall n, In n d2 -> sentence_item n -> first_order ascii_unicode (o_letters diacritic) n = true) /\ spoken ascii_unicode d2 /\
    means ascii_unicode (o_letters diacritic) d1 F1 /\ means ascii_unicode (o_letters diacritic) d2 F2 /\
    prints ascii_unicode (Some t1) s /\ prints ascii_unicode (Some t2) s /\
    variables F1 = [] /\ variables F2 = [] /\ F1 <> F2.
Proof.
  assert (D1 : exists d, discourse_of "mai? da poq? da suq? da" = Some d /\ means ascii_unicode (o_letters diacritic) d to_left).
  { eexists. split; [now_vm|]. exists to_left, (State 0 [] []). split; [|reflexivity]. do 3 bare_sentence. apply INone. }
  assert (D2 : exists d, discourse_of "mai? da poq? ru suq? da" = Some d /\ means ascii_unicode (o_letters diacritic) d to_right).
  { eexists. split; [now_vm|]. exists to_right, (State 0 [] []). split; [|reflexivity]. bare_sentence.
    bare_sentence. apply INone. }
  destruct D1 as (d1 & D1 & M1). destruct (discourse_case _ _ "mai() ∧ poq() ∧ suq()." D1) as (t1 & P1 & O1 & Pr1 & Fo1); [now_vm..|].
  destruct D2 as (d2 & D2 & M2). destruct (discourse_case _ _ "mai() ∧ poq() ∧ suq()." D2) as (t2 & P2 & O2 & Pr2 & Fo2); [now_vm..|].
  exists "mai? da poq? da suq? da", "mai? da poq? ru suq? da", d1, d2, t1, t2, to_left, to_right, "mai() ∧ poq() ∧ suq().".
  assert (S1 : spoken ascii_unicode d1) by (eapply spoken_ok; [exact P1|now_vm]). assert (S2 : spoken ascii_unicode d2) by (eapply spoken_ok; [exact P2|now_vm]).
  clear D1 D2. repeat match goal with |- _ /\ _ => split end; try assumption; try reflexivity. discriminate.
Qed.
