(** The meaning of a concrete text with clauses. *)

From Coq Require Import String NArith List Bool Arith Lia.
From Verif Require Import Base Utf8 PegSyntax Tone Ast Parser ParserSpec AstCases Logic LogicWords LogicSpec ScopeSpec Interp Simplify LogicString LogicApi LogicCases Meaning Clauses.
From Verif Require AstSorts MeaningCases.
Import ListNotations.
Open Scope string_scope.
Open Scope list_scope.
Open Scope nat_scope.

Definition text : string := "tu do/ ne\ do/ bi kuq? ji/ fa^ do/".
Definition output : string := "[ιJ : ji(J)] ∀X ne({kuq(J, {fa(X)})}, X).".

Definition covers_text (text : string) : bool :=
  match discourse_of text with Some d => forallb (covered ascii_unicode (o_letters diacritic)) d | None => false end.
Lemma covered_text text s : covers_text text = true -> logic_string text = Ok s -> match logic_of text with Ok (Some _) => true | _ => false end = true ->
  exists d t, discourse_of text = Some d /\ parses text d /\ outcome ascii_unicode d (Ok (Some t)) /\ prints ascii_unicode (Some t) s /\
    forall n, In n d -> sentence_item n -> covered ascii_unicode (o_letters diacritic) n = true.
Proof.
  unfold covers_text, logic_string. intros F S L. unfold logic_of in *. destruct (discourse_of text) as [d|] eqn:D; [|discriminate].
  destruct (interpret ascii_unicode (o_letters diacritic) 100 d) as [[t|]| |] eqn:I; try discriminate. cbn [bind] in S. exists d, t. split; [reflexivity|]. split.
  - unfold discourse_of in D. destruct (parsed text) as [n|] eqn:P; [|discriminate].
    destruct n as [lead d'| | | | | | | | | | | | | | | | | | | | | | | | | |]; try discriminate. injection D as ->. exists lead. apply parsed_ok, P.
  - split; [eapply outcome_intro; [exact I|discriminate]|]. split; [eapply prints_intro, S|]. intros n J _. rewrite forallb_forall in F. apply F, J.
Qed.

Ltac side := match goal with
  | |- placed ?a _ => let b := eval vm_compute in (map fst a) in exact (MeaningCases.unlinked_placed b)
  | |- _ \/ _ => first [left; side | right; side]
  | |- _ <> _ => discriminate
  | |- sentence_item _ => left; do 3 eexists; reflexivity
  | |- _ = _ => vm_compute; reflexivity
  end.
Ltac derive := solve [econstructor; [first [side | derive] ..]].
Definition meant : form :=
  Limits QThe 1 false (Says (Simple (Named "ji")) (Item (Var (Bound 1 false)) Nil))
    (Binds QEach 0 false
      (Says (Simple (Named "ne"))
        (Item (That (Says (Simple (Named "kuq"))
                 (Item (Var (Bound 1 false))
                   (Item (That (Says (Simple (Named "fa")) (Item (Var (Bound 0 false)) Nil))) Nil))))
          (Item (Var (Bound 0 false)) Nil)))).

Lemma clauses_case :
  exists d t, parses text d /\ outcome ascii_unicode d (Ok (Some t)) /\ prints ascii_unicode (Some t) output /\
    (forall n, In n d -> sentence_item n -> covered ascii_unicode (o_letters diacritic) n = true) /\
    conveys ascii_unicode (o_letters diacritic) d meant.
Proof.
  assert (D : exists d, discourse_of text = Some d /\ conveys ascii_unicode (o_letters diacritic) d meant).
  { assert (X : exists d F, discourse_of text = Some d /\ conveys ascii_unicode (o_letters diacritic) d F /\ F = meant).
    - eexists _, _. split; [vm_compute; reflexivity|]. split; [eexists _, _; split; [derive|reflexivity]|vm_compute; reflexivity].
    - destruct X as (d & F & E & C & ->). eauto. }
  destruct D as (d & D & M). destruct (covered_text text output) as (d' & t & D' & P & O & Pr & Co); [vm_compute; reflexivity..|].
  rewrite D in D'. injection D' as <-. exists d, t. auto.
Qed.
