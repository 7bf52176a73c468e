(** C62: capital letters.

    [small s] is [s] with the letters A to Z other than V, the tone sign, made small
    (CaseFold.v), and [small_tree] does so throughout a tree of Tree.  [punct_no_letter]
    says that the letters of ASCII are no punctuation, [punct_plain] (LateDigit.v) that
    Toaq's letters and the digits are none.  [low_node n] is the tree [n] of Text with all
    words in small letters, those with a tone included, and with i for the dotless i that the
    parser makes of i but not of I (CaseText.v). *)

From Coq Require Import String NArith List.
From Verif Require Import Base Peg TreeSpec Ast Parser ParserSpec LogicWords App AppSpec AppApi LateDigit CaseFold CaseFacts CaseApi CaseText CaseAst CaseTalk.
Import ListNotations.
Open Scope string_scope.
Open Scope list_scope.
Open Scope nat_scope.

(** C62.  Tree accepts one if it accepts the other, with the same tree but for case, and
    otherwise reports the same place and the same alternatives. *)
Theorem C62_tree : forall is_punct, punct_no_letter is_punct -> punct_plain is_punct -> forall t u, small t = small u ->
  match fst (tree is_punct (new_parser t)), fst (tree is_punct (new_parser u)) with
  | Ok (Got (Some n)), Ok (Got (Some m)) => small_tree n = small_tree m
  | Ok (Err e), Ok (Err e') => pe_tree e = pe_tree e' /\ pe_loc e = pe_loc e' /\ small (pe_msg e) = small (pe_msg e')
  | _, _ => False
  end.
Proof. exact trees_agree. Qed.
Print Assumptions C62_tree.

(** C62.  Text returns a tree, an error or panics on both alike. *)
Theorem C62_text : forall is_punct, punct_no_letter is_punct -> punct_plain is_punct -> forall t u, small t = small u ->
  match fst (text_of is_punct (new_parser t)), fst (text_of is_punct (new_parser u)) with
  | Ok (Got (Some _)), Ok (Got (Some _)) => True
  | Ok (Err e), Ok (Err e') => pe_tree e = pe_tree e' /\ pe_loc e = pe_loc e' /\ small (pe_msg e) = small (pe_msg e')
  | Panic q, Panic q' => q = q'
  | _, _ => False
  end.
Proof. exact texts_same. Qed.
Print Assumptions C62_text.

(** C62.  Whatever was called on the two parsers before. *)
Theorem C62_reached : forall is_punct, punct_no_letter is_punct -> forall t u, small t = small u ->
  forall p q n, reach is_punct t p -> reach is_punct u q -> fst (tree is_punct p) = Ok (Got (Some n)) ->
  exists m, fst (tree is_punct q) = Ok (Got (Some m)) /\ small_tree n = small_tree m.
Proof. exact reached_same. Qed.
Print Assumptions C62_reached.

(** C62.  The trees of Text differ in nothing but the case of letters either; places are the
    same. *)
Theorem C62_ast : forall is_punct, punct_no_letter is_punct -> punct_plain is_punct -> forall t u, small t = small u ->
  forall p q n, reach is_punct t p -> reach is_punct u q -> fst (text_of is_punct p) = Ok (Got (Some n)) ->
  exists m, fst (text_of is_punct q) = Ok (Got (Some m)) /\ low_node n = low_node m.
Proof. exact asts_same. Qed.
Print Assumptions C62_ast.

(** C62.  The same calls of Tree, Text and Word in the same order, recovered panics included,
    have the same results up to case on both: words and their lengths, trees, errors and
    panics ([talk], [alike_answer] in CaseText.v). *)
Theorem C62_calls : forall is_punct, punct_no_letter is_punct -> forall t u, small t = small u ->
  forall calls, Forall2 alike_answer (talk is_punct calls (new_parser t)) (talk is_punct calls (new_parser u)).
Proof. exact talks_same. Qed.
Print Assumptions C62_calls.

Example C62_calls_case : let calls := [CWord 4; CTree; CWord 0; CText; CWord 7] in
  small "JAI? xx" = small "jai? xx" /\ talk ascii_punct calls (new_parser "JAI? xx") <> talk ascii_punct calls (new_parser "jai? xx").
Proof. exact talk_case. Qed.
Example C62_ast_case : texts_of "JAI? JI/" = ["JẢI"; "JÍ"] /\ texts_of "jai? ji/" = ["jảı"; "jí"].
Proof. exact ast_case. Qed.
Example C62_low_case :
  low 0 "JÍ" = low 0 "jí" /\ low 0 "ji" = low 0 "jı" /\ low 0 "JÁ" <> low 0 "ja" /\ low 0 "dǎI" <> low 0 "dáI" /\ low 0 "V" <> low 0 "v".
Proof. exact low_case. Qed.
Example C62_punct_case : punct_no_letter ascii_punct.
Proof. exact ascii_no_letter. Qed.
Example C62_case :
  small "Jai/ JI/" = small "jai/ ji/" /\ "Jai/ JI/" <> "jai/ ji/" /\
  (exists n, fst (tree ascii_punct (new_parser "Jai/ JI/")) = Ok (Got (Some n))) /\
  (exists e, fst (tree ascii_punct (new_parser "JaiV gi")) = Ok (Err e)).
Proof. exact case_case. Qed.
Example C62_text_case : small "Gi? JI/ JAIV ji/" = small "gi? ji/ jaiV ji/" /\
  (exists n, fst (text_of ascii_punct (new_parser "Gi? JI/ JAIV ji/")) = Ok (Got (Some n))) /\
  fst (text_of ascii_punct (new_parser "JAI4 ji/")) = Panic PRuntime.
Proof. exact shouted. Qed.
(** The exception is needed: V is a tone sign, v is no letter of Toaq. *)
Example C62_v_case :
  (exists n, fst (tree ascii_punct (new_parser "gi? ji/ jaiV")) = Ok (Got (Some n))) /\
  (exists e, fst (tree ascii_punct (new_parser "gi? ji/ jaiv")) = Ok (Err e)).
Proof. exact capital_v. Qed.
