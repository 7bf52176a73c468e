(** Properties of package logic: C29 to C38.  [outcome U d r] says that Interpret of a text
    with the discourse [d] ends with [r] (a result or a panic), [prints U t s] that String of
    the tree [t] is [s], [nodes t l] that Visit reaches the nodes [l] of [t] in this order.
    [U] are the functions of package unicode. *)

From Coq Require Import String NArith List Arith Sorted Permutation.
From Verif Require Import Base PegSyntax Tone ToneSpec Ast AstSorts Parser Logic LogicWords LogicSpec Interp Simplify LogicString OrderFacts NameFacts
  NameInj SeqFacts TermFacts LogicApi LogicCases SafeBase SimplifySafe LogicSafe LogicLoop
  ScopeSpec ScopeSimp ScopeNum ScopeTotal ScopeCases.
Import ListNotations.
Open Scope string_scope.
Open Scope list_scope.
Open Scope nat_scope.

(** C29. *)
Theorem C29_nil :
  forall U d o, outcome U d (Ok o) -> (o = None <-> ~ has_sentence d).
Proof. exact outcome_nil. Qed.
Print Assumptions C29_nil.

(** A discourse of fragments is always interpreted, as nil. *)
Theorem C29_fragments :
  forall U d, (forall n, In n d -> is_fragment n = true) -> outcome U d (Ok None).
Proof. exact outcome_fragments. Qed.
Print Assumptions C29_fragments.

Example C29_case_nil : exists d, parses "suq/ ru ji/" d /\ outcome ascii_unicode d (Ok None).
Proof. exact fragment_case. Qed.
Example C29_case : exists d t, parses "gi? suq/ da gi? ji/" d /\ outcome ascii_unicode d (Ok (Some t)).
Proof. exact sentence_case. Qed.

(** C30.  False: an explicit panic, and a failing type assertion. *)
Theorem C30_connector_refuted :
  exists text d, parses text d /\ outcome ascii_unicode d (Panic (PString "impossible: ro")).
Proof. exact bad_connector_panics. Qed.
Print Assumptions C30_connector_refuted.

Theorem C30_assertion_refuted :
  exists text d, parses text d /\ outcome ascii_unicode d (Panic PRuntime).
Proof. exact bad_relative_panics. Qed.
Print Assumptions C30_assertion_refuted.

(** Nor does it always end: here the tree that simplify makes has a cycle.  (Such a text
    ends the whole program, since Go cannot recover from a stack overflow.) *)
Theorem C30_loops_refuted :
  exists text d, parses text d /\
    (forall n, In n d -> is_sentence n = true -> well_sorted n = true /\ supported ascii_unicode n = true) /\
    forall r, ~ outcome ascii_unicode d r.
Proof. exact loops. Qed.
Print Assumptions C30_loops_refuted.

(** It never panics on what it supports (LogicSpec.v, [supported]): sentences that are well
    sorted (C19), with connectives ru, ra, ri, between arguments roi, between sentences
    ru, and without the prefix mu. *)
Theorem C30_supported_partial :
  forall is_punct text p lead d U, reach is_punct text p ->
    fst (text_of is_punct p) = Ok (Got (Some (NText lead d))) ->
    (forall n, In n d -> is_sentence n = true -> well_sorted n = true /\ supported U n = true) ->
    forall q, ~ outcome U d (Panic q).
Proof. exact text_no_panic. Qed.
Print Assumptions C30_supported_partial.

(** Nor does String or PrettyString of the result. *)
Theorem C30_print_partial :
  forall is_punct text p lead d U, reach is_punct text p ->
    fst (text_of is_punct p) = Ok (Got (Some (NText lead d))) ->
    (forall n, In n d -> is_sentence n = true -> well_sorted n = true /\ supported U n = true) ->
    forall t, outcome U d (Ok t) -> forall keys pretty fuel q, print U keys pretty fuel t <> Panic q.
Proof. exact text_print_no_panic. Qed.
Print Assumptions C30_print_partial.

Example C30_case :
  exists lead d, fst (text_of ascii_punct (new_parser supported_text)) = Ok (Got (Some (NText lead d))) /\ has_sentence d /\
    forall n, In n d -> is_sentence n = true -> well_sorted n = true /\ supported ascii_unicode n = true.
Proof. exact supported_case. Qed.

(** On first-order sentences (ScopeSpec.v, [first_order]) that it supports, Interpret
    returns a tree, and String and PrettyString of the tree return too.  (Here the loop of
    C30_loops_refuted cannot happen.) *)
Theorem C30_first_order_partial :
  forall is_punct text p lead d U, Parser.reach is_punct text p ->
    fst (text_of is_punct p) = Ok (Got (Some (NText lead d))) ->
    (forall n, In n d -> is_sentence n = true ->
       well_sorted n = true /\ supported U n = true /\ first_order U (o_letters diacritic) n = true) ->
    exists t, outcome U d (Ok t) /\
      exists f0, forall keys pretty f, f0 <= f -> exists s, print U keys pretty f t = Ok s.
Proof. exact text_returns. Qed.
Print Assumptions C30_first_order_partial.

Example C30_first_order_case :
  exists lead d, fst (text_of ascii_punct (new_parser total_text)) = Ok (Got (Some (NText lead d))) /\ has_sentence d /\
    forall n, In n d -> is_sentence n = true ->
      well_sorted n = true /\ supported ascii_unicode n = true /\ first_order ascii_unicode (o_letters diacritic) n = true.
Proof. exact total_case. Qed.

(** C31.  The order in which the table of variables made with o is read does not matter,
    nor does the order in which the map of names is. *)
Theorem C31_interpret :
  forall U d', reordered diacritic d' -> forall fuel d,
    interpret U (o_letters d') fuel d = interpret U (o_letters diacritic) fuel d.
Proof. exact o_order_irrelevant. Qed.
Print Assumptions C31_interpret.

Theorem C31_print :
  forall U keys, (forall ks, Permutation ks (keys ks)) -> forall pretty fuel t,
    print U keys pretty fuel t = print U (fun ks => ks) pretty fuel t.
Proof. exact print_order_irrelevant. Qed.
Print Assumptions C31_print.

Example C31_case : reordered diacritic (rev diacritic) /\ (forall ks : list string, Permutation ks (rev ks)).
Proof.
  split; [|exact (@Permutation_rev string)]. exists (rev diacritic). split; [apply Permutation_rev|].
  generalize (rev diacritic). intros l. induction l; constructor; auto.
Qed.

(** C32.  [a] lists the arguments with the position that their linking words name, or 0. *)
Theorem C32_order :
  forall a : args, exists l k,
    order_arguments a = Ok l /\
    length l = list_max (length a :: map snd a) /\
    (forall p x, linked_at a p x -> nth_error l p = Some (Some x)) /\
    free_slots a l = map Some (unlinked a) ++ repeat None k.
Proof. exact order_spec. Qed.
Print Assumptions C32_order.

Example C32_case : order_arguments [(7, 0); (8, 3); (9, 0); (5, 1)] = Ok [Some 5; Some 7; Some 8; Some 9].
Proof. reflexivity. Qed.
Example C32_case_gap : order_arguments [(7, 0); (8, 4)] = Ok [Some 7; None; None; Some 8].
Proof. reflexivity. Qed.

(** C33.  False if there are two connected arguments: a combination is missing. *)
Theorem C33_combination_refuted :
  exists text p x a b y c e d t l,
    parses text d /\ simple_sentence p [x; y] d /\ ru_argument a b x /\ ru_argument c e y /\
    outcome ascii_unicode d (Ok (Some t)) /\ nodes t l /\
    length (named_predications (snd t) l "mai") = 3 /\
    prints ascii_unicode (Some t) "[ιJ : ji(J)] [ιP : poq(P)] [ιD : deq(D)] [ιS : suq(S)] mai(J, P) ∧ mai(J, D) ∧ mai(S, D).".
Proof. exact missing_combination. Qed.
Print Assumptions C33_combination_refuted.

(** A connected argument that no other follows does distribute: the statement is
    interpreted with each operand in its place, and the results are connected. *)
Theorem C33_distributes_partial :
  forall U ol vf fuel a st bi f t w l r rest s z ts' s',
    has_text U w "roi" = false -> plain U rest ->
    run U ol vf (S fuel) _ (KPrenex a st bi (NCoP CArgument f t w l r :: rest)) s = Ok (z, ts', s') ->
    exists c x y tx ty s1 s2,
      connector U w = Ok c /\
      run U ol vf fuel _ (KPrenex a st bi (l :: rest)) s = Ok (x, tx, s1) /\
      run U ol vf fuel _ (KPrenex a st bi (r :: rest)) s1 = Ok (y, ty, s2) /\
      nth_error (s_heap s') z = Some (CConnection c x y) /\ s_heap s' = s_heap s2 ++ [CConnection c x y].
Proof. exact connected_distributes. Qed.
Print Assumptions C33_distributes_partial.

Theorem C33_linked_partial :
  forall U ol vf fuel a st bi go f t w l r rest s z ts' s',
    has_text U w "roi" = false -> plain U rest ->
    run U ol vf (S fuel) _ (KPrenex a st bi (NLinked go (NCoP CArgument f t w l r) :: rest)) s = Ok (z, ts', s') ->
    exists c x y tx ty s1 s2,
      connector U w = Ok c /\
      run U ol vf fuel _ (KPrenex a st bi (NLinked go l :: rest)) s = Ok (x, tx, s1) /\
      run U ol vf fuel _ (KPrenex a st bi (NLinked go r :: rest)) s1 = Ok (y, ty, s2) /\
      nth_error (s_heap s') z = Some (CConnection c x y) /\ s_heap s' = s_heap s2 ++ [CConnection c x y].
Proof. exact linked_distributes. Qed.
Print Assumptions C33_linked_partial.

Example C33_case :
  exists d p je na da f t w l r y st bi z ts s,
    parses "mai? ji/ ru suq/ poq/" d /\
    d = [NSentence je (NPredication p (Some [NCoP CArgument f t w l r; y]) na) da] /\
    has_text ascii_unicode w "roi" = false /\ plain ascii_unicode [y] /\
    run ascii_unicode (o_letters diacritic) 20 20 _ (KPrenex [] st bi [NCoP CArgument f t w l r; y]) st0 = Ok (z, ts, s).
Proof. exact connected_case. Qed.

(** C34.  False: the predicate of the second operand does not occur in the result, though
    the preposition is applied twice. *)
Theorem C34_operand_refuted :
  exists text d t l, parses text d /\ outcome ascii_unicode d (Ok (Some t)) /\ nodes t l /\
    text = "ne\ poq/ ru deq/ bi fa? ji/" /\
    (forall r, In r l -> nth_error (snd t) r <> Some (CPred "deq")) /\
    length (named_predications (snd t) l "ne") = 2.
Proof. exact operand_missing. Qed.
Print Assumptions C34_operand_refuted.

(** And it is never read. *)
Theorem C34_ignored :
  forall U ol vf fuel p a0 f t w l r r' s, has_text U w "roi" = false ->
    run U ol vf fuel _ (KPredPreposition p a0 (NCoP CArgument f t w l r)) s =
    run U ol vf fuel _ (KPredPreposition p a0 (NCoP CArgument f t w l r')) s.
Proof. exact right_operand_ignored. Qed.
Print Assumptions C34_ignored.

(** C35.  False, with roi, hi, hoa in a predicate, and ke. *)
Theorem C35_roi_refuted :
  exists text d t, parses text d /\ outcome ascii_unicode d (Ok (Some t)) /\ ~ scoped t.
Proof. exact unscoped_roi. Qed.
Print Assumptions C35_roi_refuted.

Theorem C35_hi_refuted :
  exists text d t, parses text d /\ outcome ascii_unicode d (Ok (Some t)) /\ ~ scoped t.
Proof. exact unscoped_hi. Qed.
Print Assumptions C35_hi_refuted.

Theorem C35_hoa_refuted :
  exists text d t, parses text d /\ outcome ascii_unicode d (Ok (Some t)) /\ ~ scoped t.
Proof. exact unscoped_hoa. Qed.
Print Assumptions C35_hoa_refuted.

Theorem C35_ke_refuted :
  exists text d t, parses text d /\ outcome ascii_unicode d (Ok (Some t)) /\ ~ scoped t.
Proof. exact unscoped_ke. Qed.
Print Assumptions C35_ke_refuted.

(** True of sentences without these, and without clauses and arguments inside predicates,
    prepositions and adverbs. *)
Theorem C35_first_order_partial :
  forall U d t, outcome U d (Ok (Some t)) ->
    (forall n, In n d -> sentence_item n -> first_order U (o_letters diacritic) n = true) -> scoped t.
Proof. exact first_order_scoped. Qed.
Print Assumptions C35_first_order_partial.

Example C35_case :
  exists d t, parses "sa do/ bi mai? poq/ maiV hoa/ do/ na suq/" d /\ outcome ascii_unicode d (Ok (Some t)) /\
    prints ascii_unicode (Some t) "[ιS : suq(S)] ∃X [ΛP : poq(P) ∧ mai(P, X)] mai(P, S)." /\
    forall n, In n d -> sentence_item n -> first_order ascii_unicode (o_letters diacritic) n = true.
Proof. exact first_order_case. Qed.

(** C36.  False: a number that is not less than the number of nodes that introduce a
    variable. *)
Theorem C36_gap_refuted :
  exists text d t l r v, parses text d /\ outcome ascii_unicode d (Ok (Some t)) /\ nodes t l /\
    In r l /\ number (snd t) r = Some v /\ length (introducers t l) <= v.
Proof. exact gap_in_numbers. Qed.
Print Assumptions C36_gap_refuted.

(** True if the tree shares no node that introduces a variable. *)
Theorem C36_numbers_partial :
  forall U d t l, outcome U d (Ok (Some t)) -> nodes t l -> NoDup (filter (introduces (snd t)) l) ->
    (forall k x, nth_error (filter (introduces (snd t)) l) k = Some x -> number (snd t) x = Some k) /\
    (forall x b, In x l -> refers (snd t) x b -> before l b x -> introduces (snd t) b = true ->
       number (snd t) x = number (snd t) b).
Proof. exact outcome_numbers. Qed.
Print Assumptions C36_numbers_partial.

(** True of first-order sentences in which no free variable occurs twice. *)
Theorem C36_first_order_partial :
  forall U d t l, outcome U d (Ok (Some t)) ->
    (forall n, In n d -> sentence_item n -> first_order U (o_letters diacritic) n = true) ->
    nodes t l -> NoDup (filter (unbound (snd t)) l) ->
    NoDup (filter (introduces (snd t)) l) /\
    (forall k x, nth_error (filter (introduces (snd t)) l) k = Some x -> number (snd t) x = Some k) /\
    (forall x b, In x l -> refers (snd t) x b ->
       In b (filter (introduces (snd t)) l) /\ number (snd t) x = number (snd t) b).
Proof. exact first_order_numbers. Qed.
Print Assumptions C36_first_order_partial.

(** C37.  The period can be missing. *)
Theorem C37_period_refuted :
  exists text d t s, parses text d /\ outcome ascii_unicode d (Ok (Some t)) /\ prints ascii_unicode (Some t) s /\
    forall body, s <> (body ++ ".")%string.
Proof. exact no_period. Qed.
Print Assumptions C37_period_refuted.

(** It is there if the numbers of variables have no gaps. *)
Theorem C37_period_partial :
  forall U keys pretty fuel r h l s, visited h fuel r = Ok l ->
    (forall v w, In v (variable_numbers h l) -> w <= v -> In w (variable_numbers h l)) ->
    print U keys pretty fuel (Some (r, h)) = Ok s -> exists body, s = (body ++ ".")%string.
Proof. exact print_period. Qed.
Print Assumptions C37_period_partial.

(** Also for first-order sentences in which no free variable occurs twice and every binding
    has a variable. *)
Theorem C37_first_order_partial :
  forall U d t l s, outcome U d (Ok (Some t)) ->
    (forall n, In n d -> sentence_item n -> first_order U (o_letters diacritic) n = true) ->
    nodes t l -> NoDup (filter (unbound (snd t)) l) ->
    (forall b, In b l -> binding (snd t) b = true -> exists x, In x l /\ refers (snd t) x b) ->
    prints U (Some t) s -> exists body, s = (body ++ ".")%string.
Proof. exact first_order_period. Qed.
Print Assumptions C37_first_order_partial.

(** Different numbers have different names. *)
Theorem C37_names :
  forall U keys pretty fuel r h s, (forall ks, Permutation ks (keys ks)) ->
    plain_upper U -> toaq_names h -> print U keys pretty fuel (Some (r, h)) = Ok s ->
    exists names body,
      show pretty names h fuel r = Ok body /\
      (forall v v', show_var pretty names v = show_var pretty names v' -> v = v') /\
      match names with Some _ => s = (body ++ ".")%string | None => s = body end.
Proof. exact print_names. Qed.
Print Assumptions C37_names.

Example C36_C37_case :
  exists d t l, parses "mai? tu poq/ sa deq/" d /\ outcome ascii_unicode d (Ok (Some t)) /\ nodes t l /\
    NoDup (filter (introduces (snd t)) l) /\ length (filter (introduces (snd t)) l) = 2 /\
    (exists x b, In x l /\ refers (snd t) x b /\ before l b x /\ introduces (snd t) b = true) /\
    (forall v w, In v (variable_numbers (snd t) l) -> w <= v -> In w (variable_numbers (snd t) l)) /\
    toaq_names (snd t) /\
    prints ascii_unicode (Some t) "[∀P : poq(P)] [∃D : deq(D)] mai(P, D).".
Proof. exact numbers_case. Qed.

Example C36_C37_case_first_order :
  exists d t l, parses "sa do/ bi mai? poq/ maiV hoa/ do/ na suq/" d /\ outcome ascii_unicode d (Ok (Some t)) /\ nodes t l /\
    (forall n, In n d -> sentence_item n -> first_order ascii_unicode (o_letters diacritic) n = true) /\
    NoDup (filter (unbound (snd t)) l) /\ length (filter (introduces (snd t)) l) = 3 /\
    forall b, In b l -> binding (snd t) b = true -> exists x, In x l /\ refers (snd t) x b.
Proof. exact first_order_numbered_case. Qed.

(** C38. *)
Theorem C38_union :
  forall l r y, In y (merge l r) <-> In y l \/ In y r.
Proof. exact merge_union. Qed.
Print Assumptions C38_union.

(** The documentation's promise is not kept. *)
Theorem C38_sorted_refuted :
  exists l r, StronglySorted lt l /\ StronglySorted lt r /\
    ~ StronglySorted le (merge l r) /\ ~ NoDup (merge l r).
Proof. exact merge_unsorted. Qed.
Print Assumptions C38_sorted_refuted.

(** It is for disjoint sets. *)
Theorem C38_sorted_partial :
  forall l r, StronglySorted lt l -> StronglySorted lt r -> (forall x, In x l -> ~ In x r) -> StronglySorted lt (merge l r).
Proof. exact merge_sorted. Qed.
Print Assumptions C38_sorted_partial.

Example C38_case : merge [1; 4] [0; 2; 7] = [0; 1; 2; 4; 7].
Proof. reflexivity. Qed.
