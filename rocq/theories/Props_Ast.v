(** Properties of the operations on ASTs: C20, C21 and C24-C28.  [below m n] says that [m] is [n] or a
    node that Visit reaches from it. *)

From Coq Require Import String NArith List Permutation.
From Verif Require Import Base PegSyntax Tone Ast Parser Visit VisitSpec VisitFacts Equal EqualSpec EqualFacts Braces BracesSpec BracesFacts
  AstApi ModSpec SpanSpec SpanFacts AstCases Utf8 TileSpec SpellSpec TileApi SpellFacts TileCases.
Import ListNotations.
Open Scope nat_scope.
Open Scope list_scope.

(** C20.  Not true of the order: what follows a parenthetical is put before its ki. *)
Theorem C20_order_refuted :
  exists text n t u, fst (text_of ascii_punct (new_parser text)) = Ok (Got (Some n)) /\
    before t u (toks n) /\ t_e u <= t_s t.
Proof. exact order_refuted. Qed.
Print Assumptions C20_order_refuted.

(** The words of a tree that Text returns are not empty and tile the text up to where
    decoding stops, which is its end for a valid text.  Words other than the ki of a
    parenthetical are visited in the order of the text; without parentheticals all are. *)
Theorem C20_words_partial :
  forall is_punct text p n, reach is_punct text p -> fst (text_of is_punct p) = Ok (Got (Some n)) ->
  exists q, q <= String.length text /\ fst (decode_rune (sdrop q text)) = rune_error /\
    (forall rs, text = of_runes rs -> Forall (fun r => valid_rune r = true /\ r <> rune_error) rs -> q = String.length text) /\
    (forall t, In t (toks n) -> t_s t < t_e t <= q) /\
    (exists l, Permutation (toks n) l /\ tiles 0 l q) /\
    (forall t u, before t u (toks n) -> ~ ki_of n t -> ~ ki_of n u -> t_e t <= t_s u) /\
    ((forall kio ki d, ~ below (NParen kio ki d) n) -> tiles 0 (toks n) q).
Proof. exact text_words. Qed.
Print Assumptions C20_words_partial.

(** Every word is spelled as in the text: the same letters and tones, with the signs of
    tones put on the vowels and i without its dot, or the same separators. *)
Theorem C20_spelling_partial :
  forall is_punct text p n, reach is_punct text p -> fst (text_of is_punct p) = Ok (Got (Some n)) ->
    forall t, In t (toks n) -> word_spelled is_punct text t.
Proof. exact text_spelled. Qed.
Print Assumptions C20_spelling_partial.

Example C20_case :
  exists n, fst (text_of ascii_punct (new_parser "Hio? ke ji/ suqV, moq?")) = Ok (Got (Some n)) /\
    toks n = [("Hỉo", 0, 4); (" ", 4, 5); ("ke", 5, 7); (" ", 7, 8); ("jí", 8, 11); (" ", 11, 12); ("sǔq", 12, 16); (", ", 16, 18); ("moq", 18, 21); ("?", 21, 22)] /\
    letters "sǔq" = letters "suqV" /\ tones "sǔq" = tones "suqV" /\ tones "suqV" = [86%N] /\ letters "suqV" <> letters "suaV".
Proof. exact words_case. Qed.

(** C21.  End panics on a predication without terms and NA, and Start and End on an empty
    text. *)
Theorem C21_end_panics_refuted :
  exists text n m, fst (text_of ascii_punct (new_parser text)) = Ok (Got (Some n)) /\ below m n /\
    node_start m = Ok 0 /\ node_end m = Panic PRuntime.
Proof. exact end_panics. Qed.
Print Assumptions C21_end_panics_refuted.

Theorem C21_start_panics_refuted :
  exists n, fst (text_of ascii_punct (new_parser "")) = Ok (Got (Some n)) /\ node_start n = Panic PRuntime /\ node_end n = Panic PRuntime.
Proof. exact start_panics. Qed.
Print Assumptions C21_start_panics_refuted.

(** The exact nodes of a parsed text on which they panic: those without a word, and for End
    those whose last part is such a predication. *)
Theorem C21_parsed_partial :
  forall is_punct text p n m, reach is_punct text p -> fst (text_of is_punct p) = Ok (Got (Some n)) -> below m n ->
    (node_start m = Panic PRuntime <-> wordless m) /\
    (node_end m = Panic PRuntime <-> wordless m \/ bare_end m).
Proof. exact parsed_spans. Qed.
Print Assumptions C21_parsed_partial.

(** On any tree Start is the start of the first word, found by going to the first child
    until there is none, and panics if that leads to an empty list; nothing else can
    happen. *)
Theorem C21_start_partial :
  forall n,
    (forall i, node_start n = Ok i <-> exists w, initial (NWord w) n /\ w_s w = i) /\
    (node_start n = Panic PRuntime <-> exists k, initial k n /\ empty_list k) /\
    ((exists i, node_start n = Ok i) \/ node_start n = Panic PRuntime).
Proof. exact start_spec. Qed.
Print Assumptions C21_start_partial.

Theorem C21_end_partial :
  forall n,
    (forall i, node_end n = Ok i <-> exists w, final (NWord w) n /\ w_e w = i) /\
    (node_end n = Panic PRuntime <-> exists k, final k n /\ empty_list k) /\
    ((exists i, node_end n = Ok i) \/ node_end n = Panic PRuntime).
Proof. exact end_spec. Qed.
Print Assumptions C21_end_partial.

Example C21_case :
  exists n, fst (text_of ascii_punct (new_parser " hio? ji/ hu suq/ ")) = Ok (Got (Some n)) /\
    node_start n = Ok 1 /\ node_end n = Ok 9 /\ ~ wordless n /\ ~ bare_end n.
Proof. exact span_case. Qed.

(** C24.  Not true of every node that Visit reaches. *)
Theorem C24_equal_panics_refuted :
  exists text n m, fst (text_of ascii_punct (new_parser text)) = Ok (Got (Some n)) /\ below m n /\
    equal m (Some m) = Panic (PString "unknown node type *ast.CoP").
Proof. exact equal_panics. Qed.
Print Assumptions C24_equal_panics_refuted.

(** On the nodes of a parsed text other than the raw CoP and LUPhrase, and on any others
    with no such nodes in their fields: Equal returns, gives true exactly if the trees
    differ in positions only, and is an equivalence. *)
Theorem C24_equal_partial :
  (forall is_punct text p n m, reach is_punct text p -> fst (text_of is_punct p) = Ok (Got (Some n)) -> below m n ->
     typed_tree m \/ raw m) /\
  (forall a b, typed_tree a -> exists v, equal a b = Ok v) /\
  (forall a b, typed_tree a -> (equal a (Some b) = Ok true <-> same_but_positions a b)) /\
  (forall a, typed_tree a -> equal a None = Ok false) /\
  (forall a, typed_tree a -> equal a (Some a) = Ok true) /\
  (forall a b, typed_tree a -> typed_tree b -> equal a (Some b) = equal b (Some a)) /\
  (forall a b c, typed_tree a -> typed_tree b ->
     equal a (Some b) = Ok true -> equal b (Some c) = Ok true -> equal a (Some c) = Ok true).
Proof. exact equal_laws. Qed.
Print Assumptions C24_equal_partial.

Example C24_case :
  exists n a b, fst (text_of ascii_punct (new_parser "hio? da hio? da ")) = Ok (Got (Some n)) /\ below a n /\ below b n /\
    a <> b /\ equal a (Some b) = Ok true /\ equal a (Some n) = Ok false.
Proof. exact equal_case. Qed.

(** C25.  Not true of hand-made trees: a pair of brackets can enclose a single item. *)
Theorem C25_any_tree_refuted :
  exists n, braces_string n = "(x )"%string /\ ~ exists l, says n l /\ braced l (braces_string n).
Proof. exact braces_empty_item. Qed.
Print Assumptions C25_any_tree_refuted.

(** True of every node of the trees that Text and Word return.  Missing: conditions on
    other trees. *)
Theorem C25_braces_partial :
  (forall is_punct text p n m, reach is_punct text p -> fst (text_of is_punct p) = Ok (Got (Some n)) -> below m n ->
     exists l, says m l /\ braced l (braces_string m)) /\
  (forall is_punct text p offs w d m, reach is_punct text p -> fst (word_at is_punct offs p) = Ok (Got (w, d)) ->
     below m (NWord w) -> exists l, says m l /\ braced l (braces_string m)).
Proof. exact braces_parsed. Qed.
Print Assumptions C25_braces_partial.

(** The texts are determined by the tree. *)
Theorem C25_texts_partial : forall n l, says n l <-> l = texts n.
Proof. exact says_spec. Qed.
Print Assumptions C25_texts_partial.

Example C25_case :
  exists n, fst (text_of ascii_punct (new_parser "hio? ji/ roi ho/ suq/")) = Ok (Got (Some n)) /\
    braces_string n = "(hỉo {[jí roı hó] súq})"%string /\ texts n = ["hỉo"; "jí"; "roı"; "hó"; "súq"]%string.
Proof. exact braces_case. Qed.

(** C26, for any visitor. *)
Theorem C26_visit_traverses :
  forall (V S : Type) (step : V -> option node -> S -> option V * S) n v s s',
    visit step n v s = s' <-> traverse step v n s s'.
Proof. exact @visit_is_traverse. Qed.
Print Assumptions C26_visit_traverses.

(** A visitor that never prunes is shown exactly the nodes of the tree, each before its
    children and followed by one nil after them. *)
Theorem C26_visit_shows_all :
  forall n l, visit (func_visitor record) n tt [] = l <-> shown n l.
Proof. exact visit_shown. Qed.
Print Assumptions C26_visit_shows_all.

Theorem C26_visit_balanced :
  forall n, let l := visit (func_visitor record) n tt [] in
    nodes l = nils l /\ forall m, In (Some m) l <-> below m n.
Proof. exact visit_complete. Qed.
Print Assumptions C26_visit_balanced.

Example C26_case :
  exists n, fst (text_of ascii_punct (new_parser "hio? ji/ ru suq/")) = Ok (Got (Some n)) /\
    nodes (visit (func_visitor record) n tt []) = 22 /\ nils (visit (func_visitor record) n tt []) = 22 /\
    nodes (visit shallow n tt []) = 10 /\ nils (visit shallow n tt []) = 9.
Proof. exact visit_case. Qed.

(** C27.  Not true of a parenthetical: the modifier goes before its closing word. *)
Theorem C27_mod_paren_refuted :
  let n := the is_paren "kio hio? ki" in
  let m := the is_vocative "hu ji/" in
  exists n', mod_node (Some m) n = Ok n' /\
    map (fun t => fst (fst t)) (toks n) = ["kıo"; " "; "hỉo"; " "; "kı"]%string /\
    map (fun t => fst (fst t)) (toks n') = ["kıo"; " "; "hỉo"; " "; "hu"; " "; "jí"; "kı"]%string /\
    toks n' <> toks n ++ toks m.
Proof. exact mod_inside_paren. Qed.
Print Assumptions C27_mod_paren_refuted.

(** Apart from the order in parentheticals it is true of all trees: only modifiers of words
    change, the words of the modifier come together in one place, and everything after that
    place is closing words of parentheticals.  A nil modifier changes nothing. *)
Theorem C27_mod_partial :
  (forall m n n', mod_node (Some m) n = Ok n' -> grafted m n n' /\ bare n' = bare n) /\
  (forall m n n', mod_node (Some m) n = Ok n' -> (forall kio ki d, ~ below (NParen kio ki d) n) -> toks n' = toks n ++ toks m) /\
  (forall n n', mod_node None n = Ok n' -> n' = n).
Proof. exact mod_laws. Qed.
Print Assumptions C27_mod_partial.

Example C27_case :
  let n := the is_predication "hio? ji/ " in
  let m := the is_vocative "hu suq/" in
  exists n', mod_node (Some m) n = Ok n' /\ (forall kio ki d, ~ below (NParen kio ki d) n) /\
    map (fun t => fst (fst t)) (toks n) = ["hỉo"; " "; "jí"; " "]%string /\
    map (fun t => fst (fst t)) (toks n') = ["hỉo"; " "; "jí"; " "; "hu"; " "; "súq"]%string.
Proof. exact mod_case. Qed.

(** C28.  [n] is a tree whose words hold the addresses of their texts, all different (no
    word is shared), and [retext h n] is that tree with the texts in the store [h]. *)
Theorem C28_to_ascii :
  forall n h, NoDup (map w_t (words n)) ->
    retext (to_ascii_run n h) n = retext to_ascii (retext h n) /\
    (forall a, ~ In a (map w_t (words n)) -> to_ascii_run n h a = h a).
Proof. exact to_ascii_tree. Qed.
Print Assumptions C28_to_ascii.

Example C28_case :
  NoDup (map w_t (words skeleton)) /\
  retext (to_ascii_run skeleton texts_at) skeleton =
    NPredication (NWordPredicate (Wd "hio?" 0 5 (Some (NSpace (Wd " " 5 6 None)))))
      (Some [NPredArg None (Some (Wd "sa" 6 8 None)) (NWordPredicate (Wd "ji/" 8 11 None)) None]) None /\
  to_ascii_run skeleton texts_at "e" = "á"%string.
Proof. exact to_ascii_case. Qed.
