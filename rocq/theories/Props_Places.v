(** Properties C53 and C54: where the parts of a text are. *)

From Coq Require Import String NArith ZArith List.
From Verif Require Import Base PegSyntax Tone Ast Parser ParserSpec Visit VisitSpec VisitFacts TileSpec SpellSpec PlaceFacts WordTile.
Import ListNotations.
Open Scope string_scope.
Open Scope list_scope.
Open Scope nat_scope.

(** C53.  Two arguments that Visit shows, one after the other, have predicates that start at
    different bytes.  So the bindings of liftedScope, which the model finds by that byte,
    belong to one argument each. *)
Theorem C53_places :
  forall is_punct text p n, reach is_punct text p -> fst (text_of is_punct p) = Ok (Got (Some n)) ->
  forall f q x rel f' q' x' rel',
    before (Some (NPredArg f q x rel)) (Some (NPredArg f' q' x' rel')) (visit (func_visitor record) n tt []) ->
    exists i j, node_start x = Ok i /\ node_start x' = Ok j /\ i <> j.
Proof. exact text_places. Qed.
Print Assumptions C53_places.

Example C53_case : exists n, fst (text_of ascii_punct (new_parser nested_text)) = Ok (Got (Some n)) /\
  flat_map (fun o => match o with Some (NPredArg _ _ x _) => [node_start x] | _ => [] end) (visit (func_visitor record) n tt []) =
  [Ok 8; Ok 15; Ok 35; Ok 40; Ok 55; Ok 63].
Proof. exact nested_case. Qed.

(** C54.  Not true: E of the word is the end of the white space, which overlaps it. *)
Theorem C54_word_overlaps_refuted :
  exists text w d t u, fst (word_at ascii_punct 0 (new_parser text)) = Ok (Got (w, d)) /\
    toks (NWord w) = [t; u] /\ t_s u < t_e t.
Proof. exact word_overlaps. Qed.
Print Assumptions C54_word_overlaps_refuted.

(** Apart from that Word reads the bytes it says, from the offset on: a word that is not
    empty and spelled as in the text, and the white space after it. *)
Theorem C54_word_partial :
  forall is_punct text p offs w d, reach is_punct text p -> fst (word_at is_punct offs p) = Ok (Got (w, d)) ->
  exists e q s, offs < e <= q /\ q <= String.length text /\ d = Z.of_nat (q - offs) /\
    w = Wd s offs q (w_m w) /\ word_spelled is_punct text (s, offs, e) /\
    ((w_m w = None /\ e = q) \/
     exists t, w_m w = Some (NSpace (Wd t e q None)) /\ e < q /\ word_spelled is_punct text (t, e, q)).
Proof. exact word_covers. Qed.
Print Assumptions C54_word_partial.

Example C54_case : exists w, fst (word_at ascii_punct 4 (new_parser "Hu? Jai/, mi?")) = Ok (Got (w, 6%Z)) /\
  w = Wd "Jáı" 4 10 (Some (NSpace (Wd ", " 8 10 None))).
Proof. exact word_case. Qed.
