(** How String writes the meaning of texts with clauses. *)

From Coq Require Import String Ascii NArith List Bool Arith Lia.
From Verif Require Import Base Utf8 PegSyntax Peg Tone Ast AstSorts AstCases Parser ParserSpec Logic LogicWords LogicSpec LogicString LogicApi LogicCases
  ScopeSpec Meaning Clauses ClauseOne ClauseEnd ClauseTotal ClauseApps ClauseNotation ClauseShown ClauseCases.
From Verif Require ScopeTotal Shown ShownRead NameText.
Import ListNotations.
Open Scope string_scope.
Open Scope list_scope.
Open Scope nat_scope.

Section Text.
Variables (is_punct : N -> bool) (text : string) (p : parser) (lead : option node) (d : list node) (U : unicode).
Notation ol := (o_letters diacritic).
Hypothesis R : reach is_punct text p.
Hypothesis E : fst (text_of is_punct p) = Ok (Got (Some (NText lead d))).
Hypothesis PU : Shown.plain_unicode U.

Theorem text_written t s F : outcome U d (Ok (Some t)) ->
  (forall n, In n d -> sentence_item n -> covered U ol n = true) -> conveys U ol d F -> stray F = [] -> prints U (Some t) s ->
  exists name, told_apart name F /\ (forall x, Shown.var_name (name x) = true) /\
    (s = form_text name F \/ s = (form_text name F ++ ".")%string).
Proof.
  intros O Co M St P. eapply covered_shown; try eassumption; [exact (proj1 PU)|].
  intros name I. apply NameText.word_name_toaq. exact (NameText.text_named _ _ _ _ _ _ _ _ R E PU O I).
Qed.

Theorem text_clauses :
  (forall n, In n d -> is_sentence n = true -> well_sorted n = true /\ supported U n = true /\ covered U ol n = true) -> has_sentence d ->
  exists F t s, (forall F', conveys U ol d F' <-> F' = F) /\ outcome U d (Ok (Some t)) /\ prints U (Some t) s /\
    (scoped t <-> stray F = []) /\
    (stray F = [] -> exists name, told_apart name F /\ (forall x, Shown.var_name (name x) = true) /\
       (s = form_text name F \/ s = (form_text name F ++ ".")%string)).
Proof.
  intros S Hs. assert (Co : forall n, In n d -> sentence_item n -> covered U ol n = true) by (intros n I J; apply (S n I), ScopeTotal.item_sentence, J).
  destruct (text_tree_printed _ _ _ _ _ _ R E S Hs) as (r & h & s & O & P). destruct (clauses_mean _ _ _ _ O Co) as (F & bn & name & C & _).
  exists F, (r, h), s. split; [intros F'; split; [intros C'; eapply conveys_one; eassumption|intros ->; exact C]|].
  split; [exact O|]. split; [exact P|]. split; [eapply covered_scoped; eassumption|intros St; eapply text_written; eassumption].
Qed.
End Text.

(** ** Cases *)

Ltac conveyed := eexists _, _; split; [vm_compute; reflexivity|]; split; [eexists _, _; split; [derive|reflexivity]|vm_compute; reflexivity].


Lemma covered_case text s F : covers_text text = true -> logic_string text = Ok s -> match logic_of text with Ok (Some _) => true | _ => false end = true ->
  (exists d F', discourse_of text = Some d /\ conveys ascii_unicode (o_letters diacritic) d F' /\ F' = F) ->
  exists d t, parses text d /\ outcome ascii_unicode d (Ok (Some t)) /\ prints ascii_unicode (Some t) s /\
    (forall n, In n d -> sentence_item n -> covered ascii_unicode (o_letters diacritic) n = true) /\
    conveys ascii_unicode (o_letters diacritic) d F.
Proof.
  intros A B C (d & F' & D & M & ->). destruct (covered_text text s A B C) as (d' & t & D' & P & O & Pr & Co).
  rewrite D in D'. injection D' as <-. exists d, t. auto.
Qed.

(** A quotation, a plurality, a clause. *)
Definition written_text : string := "mai? fa^ ji/ mo/ hao? teo ji/ roi suq/".
Definition written_meaning : form :=
  Limits QThe 1 false (Says (Simple (Named "ji")) (Item (Var (Bound 1 false)) Nil))
    (Limits QThe 5 false (Says (Simple (Named "ji")) (Item (Var (Bound 5 false)) Nil))
      (Limits QThe 6 false (Says (Simple (Named "suq")) (Item (Var (Bound 6 false)) Nil))
        (Says (Simple (Named "mai"))
          (Item (That (Says (Simple (Named "fa"))
                   (Item (Var (Bound 1 false))
                     (Item (Quoted "hảo" true)
                       (Item (Several (Item (Var (Bound 5 false)) (Item (Var (Bound 6 false)) Nil))) Nil))))) Nil)))).
Definition written_output : string := "[ιJ0 : ji(J0)] [ιJ1 : ji(J1)] [ιS : suq(S)] mai({fa(J0, «hảo», ⌊J1, S⌉)})".
Definition written_names (x : nat) : string := match x with 1 => "J0" | 5 => "J1" | _ => "S" end.
Lemma written_form : form_text written_names written_meaning = written_output.
Proof. vm_compute. reflexivity. Qed.
Lemma written_case :
  exists d t, parses written_text d /\ outcome ascii_unicode d (Ok (Some t)) /\ prints ascii_unicode (Some t) (written_output ++ ".") /\
    (forall n, In n d -> sentence_item n -> covered ascii_unicode (o_letters diacritic) n = true) /\
    conveys ascii_unicode (o_letters diacritic) d written_meaning.
Proof. apply covered_case; [vm_compute; reflexivity..|]. conveyed. Qed.

(** The plurality of a roi argument that a preposition takes out of its reach is written with
    the name of another variable. *)
Definition stray_text : string := "fa? ji/ roi suq/ ne\ poq/".
Definition stray_meaning : form :=
  Limits QThe 1 false (Says (Simple (Named "ji")) (Item (Var (Bound 1 false)) Nil))
    (Limits QThe 2 false (Says (Simple (Named "suq")) (Item (Var (Bound 2 false)) Nil))
      (Limits QThe 5 false (Says (Simple (Named "poq")) (Item (Var (Bound 5 false)) Nil))
        (Says (Simple (Named "ne"))
          (Item (That (Says (Simple (Named "fa")) (Item (Var (Bound 0 false)) Nil)))
            (Item (Var (Bound 5 false)) Nil))))).
Definition stray_output : string := "[ιJ : ji(J)] [ιS : suq(S)] [ιP : poq(P)] ne({fa(J)}, P).".
Lemma stray_case :
  exists d t, parses stray_text d /\ outcome ascii_unicode d (Ok (Some t)) /\ prints ascii_unicode (Some t) stray_output /\
    (forall n, In n d -> sentence_item n -> covered ascii_unicode (o_letters diacritic) n = true) /\
    conveys ascii_unicode (o_letters diacritic) d stray_meaning.
Proof. apply covered_case; [vm_compute; reflexivity..|]. conveyed. Qed.

Lemma next_var v w s u : ShownRead.read_var s = Some (w, u) -> forall r, Shown.var_name v = true -> ShownRead.sep r ->
  s = (v ++ r)%string -> v = w /\ r = u.
Proof. intros R r V S ->. rewrite ShownRead.read_var_app in R by assumption. injection R as -> ->. auto. Qed.
Lemma skip p : forall s t, (p ++ s = p ++ t)%string -> s = t.
Proof. induction p as [|c p IH]; cbn; intros s t E; [exact E|]. injection E as E. apply IH, E. Qed.
Lemma app_sassoc a b c : ((a ++ b) ++ c = a ++ (b ++ c))%string.
Proof. induction a as [|x a IH]; cbn; [reflexivity|]. now rewrite IH. Qed.
Lemma stray_shape name u : (form_text name stray_meaning ++ u =
  "[ι" ++ name 1 ++ " : ji(" ++ name 1 ++ ")] [ι" ++ name 2 ++ " : suq(" ++ name 2 ++ ")] [ι" ++ name 5 ++ " : poq(" ++ name 5 ++
  ")] ne({fa(" ++ name 0 ++ ")}, " ++ name 5 ++ ")" ++ u)%string.
Proof.
  transitivity ((("[ι" ++ name 1 ++ " : " ++ ("ji" ++ "(" ++ name 1 ++ ")") ++ "] " ++ "[ι" ++ name 2 ++ " : " ++ ("suq" ++ "(" ++ name 2 ++ ")") ++ "] " ++
    "[ι" ++ name 5 ++ " : " ++ ("poq" ++ "(" ++ name 5 ++ ")") ++ "] " ++ "ne" ++ "(" ++ (("{" ++ ("fa" ++ "(" ++ name 0 ++ ")") ++ "}") ++ ", " ++ name 5) ++ ")") ++ u)%string); [reflexivity|].
  rewrite !app_sassoc. reflexivity.
Qed.
Lemma stray_ambiguous name u : (forall x, Shown.var_name (name x) = true) -> stray_output = (form_text name stray_meaning ++ u)%string -> name 0 = name 1.
Proof.
  intros V E. rewrite stray_shape in E.
  Ltac nexts V E := let H := fresh in eapply next_var in E; [|vm_compute; reflexivity|apply V|split; reflexivity]; destruct E as [H E]; try rewrite H in *.
  apply (skip "[ι") in E. nexts V E.
  symmetry in E. apply (skip " : ji(J)] [ι") in E. nexts V E.
  symmetry in E. apply (skip " : suq(S)] [ι") in E. nexts V E.
  symmetry in E. apply (skip " : poq(P)] ne({fa(") in E. nexts V E. reflexivity.
Qed.
Theorem stray_miswritten :
  exists d t s F, parses stray_text d /\ outcome ascii_unicode d (Ok (Some t)) /\ prints ascii_unicode (Some t) s /\
    (forall n, In n d -> sentence_item n -> covered ascii_unicode (o_letters diacritic) n = true) /\
    conveys ascii_unicode (o_letters diacritic) d F /\
    forall name, (forall x, Shown.var_name (name x) = true) -> s = form_text name F \/ s = (form_text name F ++ ".")%string -> ~ told_apart name F.
Proof.
  destruct stray_case as (d & t & P & O & Pr & Co & M). exists d, t, stray_output, stray_meaning. repeat (split; [assumption|]).
  intros name V E A. assert (X : name 0 = name 1).
  { destruct E as [E|E]; [|eapply stray_ambiguous; eassumption]. apply (stray_ambiguous name "" V). rewrite E. clear.
    induction (form_text name stray_meaning) as [|c s IH]; [reflexivity|]. cbn. now rewrite <- IH. }
  apply A in X; [discriminate| |]; vm_compute; auto 12.
Qed.
