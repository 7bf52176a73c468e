(** The predicates and the names of variables of parsed texts. *)

From Coq Require Import Ascii String NArith List Bool Arith Lia Permutation.
From Verif Require Import Base Utf8 PegSyntax Tone Ast AstSorts Parser ParserSpec AstCases Logic LogicWords LogicSpec Interp Simplify LogicString LogicApi LogicCases NameInj
  Shown ShownCases WordShape WordSpell WordName HeapNames.
Import ListNotations.
Open Scope string_scope.
Open Scope list_scope.
Open Scope nat_scope.

(** The predicates that are not from the text. *)
Definition own_name (s : string) : Prop := In s ["="; "≺"; "raq"; "chua"].

Theorem outcome_named U d t name : outcome U d (Ok (Some t)) -> In (CPred name) (snd t) ->
  own_name name \/ exists n s, In n d /\ is_sentence n = true /\ In s (predicate_texts n) /\ name = word_pred U s.
Proof.
  intros [_ [f H]] I. specialize (H f (le_n _)). destruct t as [r h].
  apply (interpret_named U (fun name => own_name name \/ exists n s, In n d /\ is_sentence n = true /\ In s (predicate_texts n) /\ name = word_pred U s) (o_letters diacritic) f d r h);
    try assumption.
  1-4: left; unfold own_name; cbn; tauto.
  intros n s J K S. right. exists n, s. auto.
Qed.

Theorem text_named is_punct text p lead d U t name : reach is_punct text p ->
  fst (text_of is_punct p) = Ok (Got (Some (NText lead d))) -> plain_unicode U ->
  outcome U d (Ok (Some t)) -> In (CPred name) (snd t) -> word_name name = true.
Proof.
  intros R T PU O I. destruct (outcome_named _ _ _ _ O I) as [J|(n & s & J & _ & S & ->)].
  - unfold own_name in J. cbn in J. repeat (destruct J as [<-|J]; [reflexivity|]). contradiction.
  - apply word_like_name; [exact PU|]. eapply text_words; [exact R|exact T|]. cbn [predicate_texts]. apply in_app_iff. right. apply in_flat_map. eauto.
Qed.

Lemma word_name_toaq name : word_name name = true ->
  name = "=" \/ name = "≺" \/ exists c rest, name = String c rest /\ (97 <= byte_of c <= 120)%N.
Proof.
  unfold word_name. intros W. apply orb_prop in W. destruct W as [W|W].
  - unfold infix in W. apply orb_prop in W. destruct W as [W|W]; apply String.eqb_eq in W; auto.
  - destruct name as [|c rest]; [discriminate|]. right; right. exists c, rest. split; [reflexivity|]. cbn [every_char] in W.
    apply andb_prop in W. destruct W as [W1 W2]. apply andb_prop in W2. destruct W2 as [W2 _]. unfold is_lower in W2. apply andb_prop in W2. destruct W2 as [W2 _].
    apply N.leb_le in W1, W2. split; assumption.
Qed.

Theorem text_names is_punct text p lead d U r h keys pretty fuel s : reach is_punct text p ->
  fst (text_of is_punct p) = Ok (Got (Some (NText lead d))) -> plain_unicode U ->
  outcome U d (Ok (Some (r, h))) -> (forall ks, Permutation ks (keys ks)) ->
  print U keys pretty fuel (Some (r, h)) = Ok s ->
  exists names body,
    show pretty names h fuel r = Ok body /\
    (forall v v', show_var pretty names v = show_var pretty names v' -> v = v') /\
    match names with Some _ => s = (body ++ ".")%string | None => s = body end.
Proof.
  intros R T PU O K P. eapply print_names; [exact K|exact (proj1 PU)| |exact P].
  intros name I. apply word_name_toaq. exact (text_named _ _ _ _ _ _ _ _ R T PU O I).
Qed.

(** A serial predicate with a po-phrase, a relative clause. *)
Lemma named_case : exists d t, parses "ji? po? poq/ suq/ maiV hoa/ ji/" d /\ outcome ascii_unicode d (Ok (Some t)) /\
  prints ascii_unicode (Some t) "[ιJ : ji(J)] [ιS : suq(S) ∧ mai(S, J)] [ιP : poq(P)] ji∘{λX raq(X, P)}(S)." /\
  In (CPred "raq") (snd t) /\ In (CPred "poq") (snd t).
Proof.
  assert (E : logic_of "ji? po? poq/ suq/ maiV hoa/ ji/" = Ok (Some (tree_of "ji? po? poq/ suq/ maiV hoa/ ji/"))) by (vm_compute; reflexivity).
  destruct (logic_of_ok _ _ E) as (d & P & O); [discriminate|].
  assert (Q : string_ ascii_unicode 100 (Some (tree_of "ji? po? poq/ suq/ maiV hoa/ ji/")) = Ok "[ιJ : ji(J)] [ιS : suq(S) ∧ mai(S, J)] [ιP : poq(P)] ji∘{λX raq(X, P)}(S).") by (vm_compute; reflexivity).
  exists d. eexists. split; [exact P|]. split; [exact O|]. split; [eapply prints_intro, Q|]. split; vm_compute; tauto.
Qed.
