(** Properties of the errors of Parser.Tree, Parser.Text and Parser.Word and of
    peg.DedupFails: C23, C41-C44.  [reach is_punct text p] says that [p] is a parser for [text]
    after any sequence of operations, [reach_dedup is_punct text p] that the client has also
    called DedupFails on any of the errors, and [later is_punct p q] that operations lead
    from [p] to [q]. *)

From Coq Require Import String NArith ZArith List.
From Verif Require Import Base Loc PegSyntax Grammar Peg PegToaq PegSpec Parser ParserSpec Dedup DedupSpec DedupApi MsgFacts WordSpec DedupCases WordErr WordErrs.
Import ListNotations.
Open Scope Z_scope.

(** C41.  Once Tree or Text has failed on a parser, both return that same error for ever. *)
Theorem C41_one_error :
  forall is_punct text p e q, reach is_punct text p ->
    fst (tree is_punct p) = Ok (Err e) \/ fst (text_of is_punct p) = Ok (Err e) ->
    later is_punct (snd (tree is_punct p)) q \/ later is_punct (snd (text_of is_punct p)) q ->
    fst (tree is_punct q) = Ok (Err e) /\ fst (text_of is_punct q) = Ok (Err e).
Proof. exact one_error. Qed.
Print Assumptions C41_one_error.

Example C41_case :
  let p := new_parser "hao? xx" in
  let q := snd (word_at ascii_punct 5 (snd (word_at ascii_punct 0 (snd (tree ascii_punct p))))) in
  exists e, fst (tree ascii_punct p) = Ok (Err e) /\ pe_offset e = 5 /\
    later ascii_punct (snd (tree ascii_punct p)) q /\
    fst (text_of ascii_punct q) = Ok (Err e) /\ (exists w, fst (word_at ascii_punct 0 q) = Ok (Got w)).
Proof. exact one_error_case. Qed.

(** C42.  DedupFails leaves of the tree of an error, in the order in which a walk meets them,
    the first occurrence of each node, with all its fields but Kids; ByteOffset of the error
    does not change, and the expectations that its message lists are leaves still. *)
Theorem C42_dedup :
  forall is_punct text p e, reach_dedup is_punct text p ->
    fst (tree is_punct p) = Ok (Err e) \/ fst (text_of is_punct p) = Ok (Err e) \/
      (exists offs, fst (word_at is_punct offs p) = Ok (Err e)) ->
    map label (preorder (dedup (pe_tree e))) = map label (firsts [] (preorder (pe_tree e))) /\
    NoDup (map address (preorder (dedup (pe_tree e)))) /\
    byte_offset (dedup (pe_tree e)) = pe_offset e /\
    incl (map label (leaf_fails (pe_tree e))) (map label (filter is_leaf (preorder (dedup (pe_tree e))))).
Proof. exact dedup_error. Qed.
Print Assumptions C42_dedup.

Example C42_case :
  exists e, fst (tree ascii_punct (new_parser "hao? xx")) = Ok (Err e) /\
    count (preorder (pe_tree e)) = 305%N /\ count (preorder (dedup (pe_tree e))) = 28%N.
Proof. exact dedup_case. Qed.

(** C43.  Not true: the nodes that DedupFails changes are those that the parser has memoized,
    and the next call of Tree makes its message from them. *)
Theorem C43_message_refuted :
  exists text e e', let p := new_parser text in
    fst (tree ascii_punct p) = Ok (Err e) /\
    fst (tree ascii_punct (snd (tree ascii_punct p))) = Ok (Err e) /\
    fst (tree ascii_punct (dedup_parser (pe_tree e) (snd (tree ascii_punct p)))) = Ok (Err e') /\
    pe_msg e = "want space; got 'xx'"%string /\ pe_msg e' = "want space, , or ; got 'xx'"%string.
Proof. exact dedup_message_refuted. Qed.
Print Assumptions C43_message_refuted.

(** Results are not affected, nor is it whether there is an error, and errors have the place
    they would have had. *)
Theorem C43_results_partial :
  forall is_punct text p1 p2, reach_dedup is_punct text p1 -> reach_dedup is_punct text p2 ->
    same_outcome (fst (tree is_punct p1)) (fst (tree is_punct p2)) /\
    same_outcome (fst (text_of is_punct p1)) (fst (text_of is_punct p2)) /\
    forall offs, same_outcome (fst (word_at is_punct offs p1)) (fst (word_at is_punct offs p2)).
Proof. exact dedup_history. Qed.
Print Assumptions C43_results_partial.
Theorem C43_place_partial :
  forall is_punct text p e, reach_dedup is_punct text p -> fst (tree is_punct p) = Ok (Err e) ->
    exists e', pe_tree e' = dedup (pe_tree e) /\ pe_offset e' = pe_offset e /\ pe_loc e' = pe_loc e /\
      forall q, later is_punct (dedup_parser (pe_tree e) (snd (tree is_punct p))) q ->
        fst (tree is_punct q) = Ok (Err e') /\ fst (text_of is_punct q) = Ok (Err e').
Proof. exact after_dedup. Qed.
Print Assumptions C43_place_partial.

(** C44.  The message lists, in words, what the leaves of the tree at its greatest position
    expected, each leaf once, and shows at most ten bytes of what is there instead. *)
Theorem C44_message :
  forall is_punct text p e, reach_dedup is_punct text p ->
    fst (tree is_punct p) = Ok (Err e) \/ fst (text_of is_punct p) = Ok (Err e) \/
      (exists offs, fst (word_at is_punct offs p) = Ok (Err e)) ->
    leaves_at (pe_offset e) (pe_tree e) <> [] /\
    pe_msg e = ("want " ++ in_words (map f_want (leaves_at (pe_offset e) (pe_tree e))) ++ "; got " ++
                found text (Z.to_nat (pe_offset e)))%string.
Proof. exact error_message. Qed.
Print Assumptions C44_message.

Example C44_case :
  exists e, fst (tree ascii_punct (new_parser "gia")) = Ok (Err e) /\ pe_offset e = 3 /\
    pe_msg e = "want [qQ], [ıiI], [oO], [5\^], [/2], [~7], [\\6], [?4], or [V3]; got EOF"%string.
Proof. exact message_case. Qed.

(** C23.  What is true of the errors of Word.  If Word alone has been called, they all say
    nothing; if Tree or Text has failed before, they are the error it gave or say nothing.
    Whatever has been called, all errors that say anything are one (C23_one_error_partial).
    What is missing: where that error is if Tree has not failed. *)
Theorem C23_words_only_partial :
  forall is_punct text p offs e, words_only is_punct text p ->
    fst (word_at is_punct offs p) = Ok (Err e) -> blank text e.
Proof. exact word_blank. Qed.
Print Assumptions C23_words_only_partial.

Example C23_case_only :
  let p := snd (word_at ascii_punct 0 (new_parser "jai xx")) in
  words_only ascii_punct "jai xx" p /\
  exists e, fst (word_at ascii_punct 4 p) = Ok (Err e) /\ pe_msg e = "want ; got 'jai xx'"%string.
Proof. exact word_blank_case. Qed.

Theorem C23_after_error_partial :
  forall is_punct text p e0 q offs e, reach is_punct text p ->
    fst (tree is_punct p) = Ok (Err e0) \/ fst (text_of is_punct p) = Ok (Err e0) ->
    later is_punct (snd (tree is_punct p)) q \/ later is_punct (snd (text_of is_punct p)) q ->
    fst (word_at is_punct offs q) = Ok (Err e) -> e = e0 \/ blank text e.
Proof. exact word_after. Qed.
Print Assumptions C23_after_error_partial.

Example C23_case_after :
  exists e, let p := new_parser "jai xx" in
    fst (tree ascii_punct p) = Ok (Err e) /\ pe_offset e <> 0 /\
    fst (word_at ascii_punct 4 (snd (tree ascii_punct p))) = Ok (Err e).
Proof. exact word_after_case. Qed.

(** Which of the two it is: the blank error exactly if Word gets further from its offset than
    Tree from the start of the text.  [@sem _ _ _ e pos None err] says that the expression [e]
    does not match at [pos], and that [err] is the farthest place where something failed
    (PegSpec.v). *)
Theorem C23_after_exact_partial :
  forall is_punct text p e0 q offs e, reach is_punct text p ->
    fst (tree is_punct p) = Ok (Err e0) \/ fst (text_of is_punct p) = Ok (Err e0) ->
    later is_punct (snd (tree is_punct p)) q \/ later is_punct (snd (text_of is_punct p)) q ->
    fst (word_at is_punct offs q) = Ok (Err e) ->
    exists err0 err, @sem toaq is_punct text (ECall r_full_text) 0 None err0 /\ @sem toaq is_punct text (ECall r_word) offs None err /\
      ((err - Z.of_nat offs <= err0 /\ e = e0) \/ (err0 < err - Z.of_nat offs /\ blank text e)).
Proof. exact word_after_exact. Qed.
Print Assumptions C23_after_exact_partial.

Example C23_case_exact :
  let p := new_parser "xx jaix" in
  exists e0, fst (tree ascii_punct p) = Ok (Err e0) /\
    (exists e, fst (word_at ascii_punct 3 (snd (tree ascii_punct p))) = Ok (Err e) /\ e <> e0) /\
    fst (word_at ascii_punct 0 (snd (tree ascii_punct p))) = Ok (Err e0).
Proof. exact word_exact_case. Qed.

(** [gives is_punct p e p'] says that Tree, Text or Word on [p] returns the error [e] and leaves
    [p'], [later] that other calls come between. *)
Theorem C23_one_error_partial :
  forall is_punct text p e p' q e' q', reach is_punct text p -> gives is_punct p e p' -> later is_punct p' q ->
    gives is_punct q e' q' -> blank text e \/ blank text e' \/ e = e'.
Proof. exact one_message. Qed.
Print Assumptions C23_one_error_partial.

Example C23_case_one :
  let p := snd (tree ascii_punct (new_parser "jai? ji/ da")) in
  (exists n, fst (tree ascii_punct (new_parser "jai? ji/ da")) = Ok (Got (Some n))) /\
  exists e, fst (word_at ascii_punct 3 p) = Ok (Err e) /\ pe_offset e = 4 /\
    pe_msg e = "want &boundary; got ' ji/ da'"%string /\
    fst (word_at ascii_punct 11 (snd (word_at ascii_punct 3 p))) = Ok (Err e).
Proof. exact one_message_case. Qed.
