(** Properties C60 and C61.  [claims [verb_t] n] are the words of a tree with the tones of
    their places, and the lengths of the lists that its term sets connect (Roles.v). *)

From Coq Require Import String NArith List.
From Verif Require Import Base PegSyntax Tone Ast Parser ParserSpec LogicApi Roles RoleFacts.
Import ListNotations.
Open Scope string_scope.
Open Scope list_scope.
Open Scope nat_scope.

(** C60.  In modifiers too; of every text, whether or not Interpret supports it. *)
Theorem C60_tones :
  forall is_punct text p n, reach is_punct text p -> fst (text_of is_punct p) = Ok (Got (Some n)) ->
    forall tones s, In (Said tones s) (claims [verb_t] n) -> In (tone s) tones.
Proof. exact text_tones. Qed.
Print Assumptions C60_tones.

(** C61. *)
Theorem C61_term_sets :
  forall is_punct text p n, reach is_punct text p -> fst (text_of is_punct p) = Ok (Got (Some n)) ->
    forall a b, In (Lengths a b) (claims [verb_t] n) -> a = b /\ 2 <= a <= 5.
Proof. exact text_lengths. Qed.
Print Assumptions C61_term_sets.

(** A text with predicates in all the roles and a term set. *)
Example C60_C61_case : exists n, fst (text_of ascii_punct (new_parser roles_text)) = Ok (Got (Some n)) /\
  claims [verb_t] n =
    [Said [no_tone] "ru"; Said [verb_t] "hỉo"; Said [verb_t] "kảq"; Said [verb_t] "pỏ"; Said [arg_t] "jí"; Said [no_tone] "ga";
     Lengths 2 2; Said [no_tone] "to"; Said [no_tone] "ru"; Said [arg_t] "jí"; Said [arg_t] "súq"; Said [no_tone] "to";
     Said [no_tone] "ru"; Said [adverb_t] "mãı"; Said [adverb_t] "chũq"; Said [no_tone] "ru"; Said [prep_t] "nìe"; Said [verb_t; prep_t] "lùa";
     Said [arg_t] "máo"; Said [relative_t] "bǔaq"; Said [content_t] "hûaq"; Said [arg_t] "jí"].
Proof. exact roles_case. Qed.
