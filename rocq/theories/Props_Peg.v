(** Properties of Parser.Tree, Parser.Text and Parser.Word: C11-C16, C18, C19, C22, C23.
    [is_punct] stands for unicode.IsPunct; [reach is_punct text p] says that [p] is a parser
    for [text] after any sequence of operations. *)

From Coq Require Import String NArith ZArith PArith List.
From Verif Require Import Base Utf8 Loc PegSyntax Grammar Peg PegToaq PegSpec TreeSpec Ast Action ActionSpec Parser
  ParserSpec NodeFacts ApiFacts AstSorts SortApi ActHits ParserCases.
Import ListNotations.
Open Scope nat_scope.
Open Scope list_scope.

(** C11. *)
Theorem C11_operations_return :
  forall is_punct text p, reach is_punct text p ->
    fst (tree is_punct p) <> NoFuel /\ fst (text_of is_punct p) <> NoFuel /\
    forall offs, fst (word_at is_punct offs p) <> NoFuel.
Proof. exact ops_return. Qed.
Print Assumptions C11_operations_return.

Theorem C11_no_left_recursion :
  forall is_punct text r p, p <= String.length text -> ~ tries is_punct text (r, p) (r, p).
Proof. exact no_left_recursion. Qed.
Print Assumptions C11_no_left_recursion.

Theorem C11_depth_linear :
  forall is_punct text l, chain is_punct text l -> length l <= S (String.length text) * 42.
Proof. exact depth_linear. Qed.
Print Assumptions C11_depth_linear.

Example C11_case : chain ascii_punct "hio" [(r_full_text, 0); (r_text, 0)].
Proof. exact chain_case. Qed.

(** C12. *)
Theorem C12_tree_is_peg :
  forall is_punct text p, reach is_punct text p ->
    (forall n, fst (tree is_punct p) = Ok (Got (Some n)) <->
       exists q err, @PegSpec.sem toaq is_punct text (ECall r_full_text) 0 (Some (q, [n])) err) /\
    ((exists e, fst (tree is_punct p) = Ok (Err e)) <->
       exists err, @PegSpec.sem toaq is_punct text (ECall r_full_text) 0 None err).
Proof. exact tree_sem. Qed.
Print Assumptions C12_tree_is_peg.

Theorem C12_text_is_peg :
  forall is_punct text p, reach is_punct text p ->
    (forall n, fst (text_of is_punct p) = Ok (Got (Some n)) <->
       exists q, vsem toaq is_punct text (ECall r_full_text) 0 (AOk q (VNode n, []))) /\
    ((exists e, fst (text_of is_punct p) = Ok (Err e)) <->
       exists err, @PegSpec.sem toaq is_punct text (ECall r_full_text) 0 None err).
Proof. exact text_sem. Qed.
Print Assumptions C12_text_is_peg.

Theorem C12_word_is_peg :
  forall is_punct text p offs, reach is_punct text p -> offs <= String.length text ->
    (forall w d, fst (word_at is_punct offs p) = Ok (Got (w, d)) <->
       exists q, vsem toaq is_punct text (ECall r_word) offs (AOk q (VWord w, [])) /\
         d = (Z.of_nat q - Z.of_nat offs)%Z) /\
    ((exists e, fst (word_at is_punct offs p) = Ok (Err e)) <->
       exists err, @PegSpec.sem toaq is_punct text (ECall r_word) offs None err).
Proof. exact word_sem. Qed.
Print Assumptions C12_word_is_peg.

Theorem C12_history_irrelevant :
  forall is_punct text p1 p2, reach is_punct text p1 -> reach is_punct text p2 ->
    same_outcome (fst (tree is_punct p1)) (fst (tree is_punct p2)) /\
    same_outcome (fst (text_of is_punct p1)) (fst (text_of is_punct p2)) /\
    forall offs, same_outcome (fst (word_at is_punct offs p1)) (fst (word_at is_punct offs p2)).
Proof. exact history. Qed.
Print Assumptions C12_history_irrelevant.

Example C12_case :
  let p := new_parser "hio? ji/" in
  let p' := snd (word_at ascii_punct 5 (snd (tree ascii_punct p))) in
  reach ascii_punct "hio? ji/" p' /\
  fst (text_of ascii_punct p) = fst (text_of ascii_punct p') /\
  exists n, fst (text_of ascii_punct p) = Ok (Got (Some n)).
Proof. exact history_case. Qed.

(** C13.  Not true: matching stops at the replacement character or an invalid byte, and
    what follows is ignored. *)
Theorem C13_consumes_all_refuted :
  exists text t, fst (tree ascii_punct (new_parser text)) = Ok (Got (Some t)) /\
    (exists n, fst (text_of ascii_punct (new_parser text)) = Ok (Got (Some n))) /\
    p_text t <> text.
Proof. exact replacement_stops. Qed.
Print Assumptions C13_consumes_all_refuted.

(** A successful parse consumed the text up to the end or to a replacement character or
    an invalid byte; valid UTF-8 without U+FFFD is consumed wholly. *)
Theorem C13_consumed_partial :
  forall is_punct text p n, reach is_punct text p -> fst (tree is_punct p) = Ok (Got (Some n)) ->
    exists q, q <= String.length text /\ p_text n = stake q text /\
      (sdrop q text = ""%string \/ fst (decode_rune (sdrop q text)) = rune_error) /\
      forall rs, text = of_runes rs ->
        Forall (fun r => valid_rune r = true /\ r <> rune_error) rs -> p_text n = text.
Proof. exact tree_consumed. Qed.
Print Assumptions C13_consumed_partial.

(** C14. *)
Theorem C14_tree_lossless :
  forall is_punct text p n, reach is_punct text p -> fst (tree is_punct p) = Ok (Got (Some n)) ->
    (exists rest, text = (concat_texts (leaves n) ++ rest)%string) /\
    p_text n = concat_texts (leaves n) /\
    forall m, inside m n -> p_kids m <> [] -> p_text m = concat_texts (p_kids m).
Proof. exact tree_lossless. Qed.
Print Assumptions C14_tree_lossless.

Example C14_case :
  exists n, fst (tree ascii_punct (new_parser "hio? ji/")) = Ok (Got (Some n)) /\
    concat_texts (leaves n) = "hio? ji/"%string /\ length (leaves n) = 15.
Proof. exact tree_case. Qed.

(** C15.  Not true of Text as a whole, because it can panic where Tree succeeds. *)
Theorem C15_agree_refuted :
  exists text t, fst (tree ascii_punct (new_parser text)) = Ok (Got (Some t)) /\
    forall n, fst (text_of ascii_punct (new_parser text)) <> Ok (Got n).
Proof. exact tree_not_text. Qed.
Print Assumptions C15_agree_refuted.

(** They fail together, never give nil without an error, when both succeed they consumed
    the same bytes, and on a text without the digits 1 to 7 they also succeed together.
    Missing, because false: success together on texts with those digits (C18). *)
Theorem C15_agree_partial :
  forall is_punct text p1 p2, reach is_punct text p1 -> reach is_punct text p2 ->
    ((exists e, fst (text_of is_punct p1) = Ok (Err e)) <-> (exists e, fst (tree is_punct p2) = Ok (Err e))) /\
    fst (text_of is_punct p1) <> Ok (Got None) /\ fst (tree is_punct p2) <> Ok (Got None) /\
    (forall n t, fst (text_of is_punct p1) = Ok (Got (Some n)) -> fst (tree is_punct p2) = Ok (Got (Some t)) ->
       exists q, vsem toaq is_punct text (ECall r_full_text) 0 (AOk q (VNode n, [])) /\ p_text t = stake q text) /\
    (no_digits text ->
       (exists n, fst (text_of is_punct p1) = Ok (Got (Some n))) <->
       (exists t, fst (tree is_punct p2) = Ok (Got (Some t)))).
Proof. exact text_tree_strong. Qed.
Print Assumptions C15_agree_partial.

Example C15_case :
  (exists e, fst (text_of ascii_punct (new_parser "hio? xx")) = Ok (Err e)) /\
  (exists e, fst (tree ascii_punct (new_parser "hio? xx")) = Ok (Err e)).
Proof. exact both_fail. Qed.

(** C16. *)
Theorem C16_error_located :
  forall is_punct text p e, reach is_punct text p ->
    fst (tree is_punct p) = Ok (Err e) \/ fst (text_of is_punct p) = Ok (Err e) \/
    (exists offs, fst (word_at is_punct offs p) = Ok (Err e)) ->
    (0 <= pe_offset e <= Z.of_nat (String.length text))%Z /\
    location text (Z.to_nat (pe_offset e)) = Some (pe_loc e).
Proof. exact error_located. Qed.
Print Assumptions C16_error_located.

Theorem C16_tree_never_panics :
  forall is_punct text p q, reach is_punct text p -> fst (tree is_punct p) <> Panic q.
Proof. exact tree_no_panic. Qed.
Print Assumptions C16_tree_never_panics.

Example C16_case :
  exists e, fst (text_of ascii_punct (new_parser "hio? xx")) = Ok (Err e) /\
    pe_offset e = 5%Z /\ pe_loc e = Loc 5 5 1 6 /\ pe_msg e = "want space; got 'xx'"%string.
Proof. exact error_case. Qed.

(** C18.  Not true. *)
Theorem C18_text_total_refuted :
  exists text, fst (text_of ascii_punct (new_parser text)) = Panic PRuntime.
Proof. exact text_panics. Qed.
Print Assumptions C18_text_total_refuted.

(** Text panics only on a text with one of the digits 1 to 7, and then with an index out
    of range in addTone: no type assertion or nil dereference in an action ever fails.
    The same holds of Word at an offset in the text. *)
Theorem C18_only_digits_partial :
  forall is_punct text p, reach is_punct text p ->
    (forall q, fst (text_of is_punct p) = Panic q -> q = PRuntime /\ ~ no_digits text) /\
    (forall offs q, offs <= String.length text -> fst (word_at is_punct offs p) = Panic q ->
       q = PRuntime /\ ~ no_digits text).
Proof. exact panics_only_digits. Qed.
Print Assumptions C18_only_digits_partial.

Example C18_case :
  no_digits "hio? ji/" /\ (exists n, fst (text_of ascii_punct (new_parser "hio? ji/")) = Ok (Got (Some n))) /\
  ~ no_digits "hio1".
Proof. exact no_digits_case. Qed.

(** C19.  Not true: an afterthought connective after a content clause takes a statement
    as its right operand, and a forethought one in an argument takes an argument as its
    left. *)
Theorem C19_well_sorted_refuted :
  exists text n, no_digits text /\ fst (text_of ascii_punct (new_parser text)) = Ok (Got (Some n)) /\
    well_sorted n = false.
Proof. exact not_own. Qed.
Print Assumptions C19_well_sorted_refuted.

Theorem C19_predicate_refuted :
  exists text n, no_digits text /\ fst (text_of ascii_punct (new_parser text)) = Ok (Got (Some n)) /\
    well_sorted n = false /\ sorted real_left own n = true.
Proof. exact not_own_predicate. Qed.
Print Assumptions C19_predicate_refuted.

(** Apart from these three operands (AstSorts.v, [real_left] and [real_right]) every
    field of every node that Text and Word return holds a node of its category. *)
Theorem C19_text_sorted_partial :
  forall is_punct text p n, reach is_punct text p -> fst (text_of is_punct p) = Ok (Got (Some n)) ->
    shape_of n = SText /\ nearly_sorted n = true.
Proof. exact text_sorted. Qed.
Print Assumptions C19_text_sorted_partial.

Theorem C19_word_sorted_partial :
  forall is_punct text p offs w d, reach is_punct text p -> fst (word_at is_punct offs p) = Ok (Got (w, d)) ->
    sorted_word real_left real_right w = true.
Proof. exact word_sorted. Qed.
Print Assumptions C19_word_sorted_partial.

Example C19_case :
  exists n, fst (text_of ascii_punct (new_parser "sa do/ bi gi? sa poq/ kio jai? ki")) = Ok (Got (Some n)) /\
    well_sorted n = true.
Proof. exact sorted_case. Qed.

(** C22.  Not true: Word keeps its values for later calls. *)
Theorem C22_fresh_refuted :
  exists text w d w' d', let p := snd (word_at ascii_punct 0 (new_parser text)) in
    fst (word_at ascii_punct 0 (new_parser text)) = Ok (Got (w, d)) /\
    fst (word_at ascii_punct 0 p) = Ok (Got (w', d')) /\ w_m w' <> None /\
    exists i, In i (a_hits (q_act (snd (word_at ascii_punct 0 p)))) /\ (i < a_next (q_act p))%N /\
      m2_get (a_map (q_act p)) r_word 0 = Some (i, VWord w').
Proof. exact words_share. Qed.
Print Assumptions C22_fresh_refuted.

(** As long as Word is not called, every value that a Text call finds in the table was
    stored during the same call, so its tree is made of new nodes. *)
Theorem C22_text_fresh_partial :
  forall is_punct text p n p', reach_tt is_punct text p -> text_of is_punct p = (Ok (Got (Some n)), p') ->
    forall i, In i (a_hits (q_act p')) -> (a_next (q_act p) <= i)%N.
Proof. exact text_fresh. Qed.
Print Assumptions C22_text_fresh_partial.

Example C22_case :
  let p := snd (text_of ascii_punct (new_parser "hio? ji/")) in
  reach_tt ascii_punct "hio? ji/" p /\ (0 < a_next (q_act p))%N /\
  exists n i, fst (text_of ascii_punct p) = Ok (Got (Some n)) /\
    In i (a_hits (q_act (snd (text_of ascii_punct p)))).
Proof. exact fresh_case. Qed.

(** C23.  Not true. *)
Theorem C23_word_error_refuted :
  exists text offs e, fst (word_at ascii_punct offs (new_parser text)) = Ok (Err e) /\
    offs <= String.length text /\ (pe_offset e < Z.of_nat offs)%Z.
Proof. exact word_error_early. Qed.
Print Assumptions C23_word_error_refuted.
