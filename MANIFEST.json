{
 "claims": [
  {
   "property": "C01",
   "status": "proved",
   "theorems": [
    "C01_map_order_irrelevant"
   ],
   "note": "tables built from any reordering of both levels of the Diacritic map"
  },
  {
   "property": "C02",
   "status": "partial",
   "theorems": [
    "C02_to_ascii_ascii_refuted",
    "C02_to_ascii_ascii_partial"
   ],
   "note": "false as stated (\"áá\" gives \"aá/\"), refuted; the exact condition is proved"
  },
  {
   "property": "C03",
   "status": "proved",
   "theorems": [
    "C03_to_ascii_identity",
    "C03_to_ascii_idempotent"
   ],
   "note": ""
  },
  {
   "property": "C04",
   "status": "proved",
   "theorems": [
    "C04_strip_no_marker",
    "C04_strip_exact"
   ],
   "note": ""
  },
  {
   "property": "C05",
   "status": "proved",
   "theorems": [
    "C05_tone_with_tone"
   ],
   "note": "stronger: markers after the first vowel are allowed"
  },
  {
   "property": "C06",
   "status": "proved",
   "theorems": [
    "C06_only_first_vowel",
    "C06_last_wins"
   ],
   "note": ""
  },
  {
   "property": "C07",
   "status": "proved",
   "theorems": [
    "C07_with_tone_panics",
    "C07_with_tone_returns"
   ],
   "note": ""
  },
  {
   "property": "C08",
   "status": "partial",
   "theorems": [
    "C08_tone_first_syllable_refuted",
    "C08_tone_first_marked_partial"
   ],
   "note": "false as stated (Tone(\"dodó\") is rising), refuted; exact behaviour proved for every string"
  },
  {
   "property": "C09",
   "status": "proved",
   "theorems": [
    "C09_last_entry_wins",
    "C09_keys"
   ],
   "note": "strings.ToLower is an arbitrary function"
  },
  {
   "property": "C10",
   "status": "partial",
   "theorems": [
    "C10_load_total_refuted",
    "C10_load_panic_partial"
   ],
   "note": "false as stated (nil dereference), refuted; exact panic condition proved"
  },
  {
   "property": "C11",
   "status": "proved",
   "theorems": [
    "C11_operations_return",
    "C11_no_left_recursion",
    "C11_depth_linear"
   ],
   "note": "for the expressions of the 403 rules as data; depth at most 42 (len+1)"
  },
  {
   "property": "C12",
   "status": "proved",
   "theorems": [
    "C12_tree_is_peg",
    "C12_text_is_peg",
    "C12_word_is_peg",
    "C12_history_irrelevant"
   ],
   "note": "against a PEG semantics without memo tables; of an error only its existence is compared"
  },
  {
   "property": "C13",
   "status": "partial",
   "theorems": [
    "C13_consumes_all_refuted",
    "C13_consumed_partial"
   ],
   "note": "false as stated (matching stops at U+FFFD or an invalid byte), refuted; the exact stopping point is proved"
  },
  {
   "property": "C14",
   "status": "proved",
   "theorems": [
    "C14_tree_lossless"
   ],
   "note": ""
  },
  {
   "property": "C15",
   "status": "partial",
   "theorems": [
    "C15_agree_refuted",
    "C15_agree_partial",
    "C15_exact_partial"
   ],
   "note": "false as stated since Text can panic (C18), refuted; proved for texts without the digits 1-7, and exactly: where Tree succeeds Text does unless a digit 1-7 follows two plain letters, and then it panics"
  },
  {
   "property": "C16",
   "status": "proved",
   "theorems": [
    "C16_error_located",
    "C16_tree_never_panics"
   ],
   "note": "with C17"
  },
  {
   "property": "C17",
   "status": "proved",
   "theorems": [
    "C17_location_terminates",
    "C17_location_counts"
   ],
   "note": ""
  },
  {
   "property": "C18",
   "status": "partial",
   "theorems": [
    "C18_text_total_refuted",
    "C18_only_digits_partial",
    "C18_exact_partial"
   ],
   "note": "false as stated (\"dai4\" panics), refuted; proved that the index in addTone is the only panic and needs a digit 1-7, and that Text panics exactly on the accepted texts in which such a digit follows two plain letters (letters and digits being no punctuation)"
  },
  {
   "property": "C19",
   "status": "partial",
   "theorems": [
    "C19_well_sorted_refuted",
    "C19_predicate_refuted",
    "C19_text_sorted_partial",
    "C19_word_sorted_partial"
   ],
   "note": "false as stated (operands of three kinds of connective phrases), refuted; proved with exactly those three exceptions"
  },
  {
   "property": "C20",
   "status": "partial",
   "theorems": [
    "C20_order_refuted",
    "C20_words_partial",
    "C20_spelling_partial"
   ],
   "note": "false of the order of words around parentheticals, refuted; proved: ranges, tiling, spelling, and the order of all words other than ki"
  },
  {
   "property": "C21",
   "status": "partial",
   "theorems": [
    "C21_end_panics_refuted",
    "C21_start_panics_refuted",
    "C21_parsed_partial",
    "C21_start_partial",
    "C21_end_partial"
   ],
   "note": "false as stated (End panics on \"hio?\"), refuted; the exact nodes on which Start and End panic are proved"
  },
  {
   "property": "C22",
   "status": "partial",
   "theorems": [
    "C22_fresh_refuted",
    "C22_text_fresh_partial"
   ],
   "note": "false for Word, refuted; proved for Text without Word calls"
  },
  {
   "property": "C23",
   "status": "partial",
   "theorems": [
    "C23_word_error_refuted",
    "C23_words_only_partial",
    "C23_after_error_partial",
    "C23_after_exact_partial",
    "C23_one_error_partial"
   ],
   "note": "false (Word(4) on \"jai xx\" reports offset 0), refuted; proved: when Word alone has been called every error of Word is at offset 0 and expects nothing, and after an error of Tree or Text every error of Word is that same error or such a blank one, the latter exactly if Word gets further from its offset than Tree from the start; and whatever has been called, all errors of one parser that are not blank are one and the same error, wherever they were asked for. Where that error is after a successful Tree is not characterised"
  },
  {
   "property": "C24",
   "status": "partial",
   "theorems": [
    "C24_equal_panics_refuted",
    "C24_equal_partial"
   ],
   "note": "false as stated (panics on the raw *CoP that Visit shows), refuted; proved for all other nodes"
  },
  {
   "property": "C25",
   "status": "partial",
   "theorems": [
    "C25_any_tree_refuted",
    "C25_braces_partial",
    "C25_texts_partial"
   ],
   "note": "false of hand-made trees, refuted; proved for every node of every tree that Text and Word return"
  },
  {
   "property": "C26",
   "status": "proved",
   "theorems": [
    "C26_visit_traverses",
    "C26_visit_shows_all",
    "C26_visit_balanced"
   ],
   "note": "for visitors with any state and any pruning; visitors that change the tree are not modelled"
  },
  {
   "property": "C27",
   "status": "partial",
   "theorems": [
    "C27_mod_paren_refuted",
    "C27_mod_partial"
   ],
   "note": "false of parentheticals, refuted; proved for all trees with exactly that exception"
  },
  {
   "property": "C28",
   "status": "proved",
   "theorems": [
    "C28_to_ascii"
   ],
   "note": "words and their texts as a store; a tree in which no word is shared"
  },
  {
   "property": "C29",
   "status": "proved",
   "theorems": [
    "C29_nil",
    "C29_fragments"
   ],
   "note": ""
  },
  {
   "property": "C30",
   "status": "partial",
   "theorems": [
    "C30_connector_refuted",
    "C30_assertion_refuted",
    "C30_loops_refuted",
    "C30_supported_partial",
    "C30_print_partial",
    "C30_first_order_partial",
    "C30_connected_partial",
    "C30_connected_first_order_partial",
    "C30_covered_partial",
    "C30_connected_covered_partial"
   ],
   "note": "false as stated (\"gi? ro hui?\" panics, and so does a failing type assertion; on \"mi? Hoaq? ke do/ jeiV gi^ hoa/ na hoa/\" it never ends), refuted; proved: no panic, neither in Interpret nor in String, when the sentences are well sorted and use only supported words; proved: both return a result when the sentences are moreover first-order (no clauses as arguments), or covered (clauses too, but not hi before a predicate, mi, and clauses in serial predicates); of parsed texts only the connectives have to be supported ones"
  },
  {
   "property": "C31",
   "status": "proved",
   "theorems": [
    "C31_interpret",
    "C31_print"
   ],
   "note": "any order of both levels of the Diacritic map, any order of the keys of the map of names"
  },
  {
   "property": "C32",
   "status": "proved",
   "theorems": [
    "C32_order"
   ],
   "note": ""
  },
  {
   "property": "C33",
   "status": "partial",
   "theorems": [
    "C33_combination_refuted",
    "C33_distributes_partial",
    "C33_linked_partial"
   ],
   "note": "false of two connected arguments, refuted; proved of the last connected argument, on the level of prenexStatement"
  },
  {
   "property": "C34",
   "status": "partial",
   "theorems": [
    "C34_operand_refuted",
    "C34_ignored"
   ],
   "note": "false as stated, refuted; proved that the right operand is never read"
  },
  {
   "property": "C35",
   "status": "partial",
   "theorems": [
    "C35_roi_refuted",
    "C35_hi_refuted",
    "C35_hoa_refuted",
    "C35_ke_refuted",
    "C35_first_order_partial",
    "C35_covered_partial",
    "C35_orderly_partial"
   ],
   "note": "false as stated, refuted with roi, with hi, with hoa inside po, and with ke; proved for all sentences of the first-order fragment (words, serials, quantified arguments, variables, hoa, relative clauses, prenexes, connectives; no clauses in predicates, prepositions, adverbs); for covered sentences (Clauses.v: clauses, prepositions, adverbs, quotations, pluralities) it holds exactly when it holds of the meaning C55 gives; proved for well-ordered sentences (Orderly.v), a class of covered ones told from their words"
  },
  {
   "property": "C36",
   "status": "partial",
   "theorems": [
    "C36_gap_refuted",
    "C36_numbers_partial",
    "C36_first_order_partial",
    "C36_scoped_partial",
    "C36_covered_partial",
    "C36_orderly_partial"
   ],
   "note": "false as stated, refuted; proved of trees that share no binding, of first-order sentences in which no free variable occurs twice, and of covered sentences (C55) whose meaning introduces no variable twice and has none outside of what binds it, as all well-ordered ones have"
  },
  {
   "property": "C37",
   "status": "partial",
   "theorems": [
    "C37_period_refuted",
    "C37_period_partial",
    "C37_first_order_partial",
    "C37_names",
    "C37_text",
    "C37_covered_partial",
    "C37_orderly_partial",
    "C37_shared_refuted"
   ],
   "note": "false as stated (no period), refuted; distinct names are proved of every parsed text, the period of trees whose variable numbers have no gap, of first-order sentences whose free variables occur once and whose bindings are used, and of covered sentences (as for C36) whose bindings are used; refuted for a well-ordered sentence that introduces a variable twice"
  },
  {
   "property": "C38",
   "status": "partial",
   "theorems": [
    "C38_union",
    "C38_sorted_refuted",
    "C38_sorted_partial"
   ],
   "note": "the union is proved; sorted and without duplicates is false, refuted, and proved of disjoint sets"
  },
  {
   "property": "C39",
   "status": "partial",
   "theorems": [
    "C39_crash_refuted",
    "C39_hangs_refuted",
    "C39_fragment_refuted",
    "C39_error",
    "C39_full",
    "C39_panic_partial",
    "C39_supported_partial",
    "C39_first_order_partial",
    "C39_fragment_partial",
    "C39_covered_partial",
    "C39_late_partial",
    "C39_every_partial"
   ],
   "note": "false as stated (\"dai4\" crashes, one text keeps the handler busy forever, a failing assertion in Interpret is shown as \"fragment\"), refuted; proved: exactly when the answer is an error or the five fields, what these hold, that a panic is a runtime error and not one the code calls impossible, and none for supported sentences without digits, and that first-order and covered ones (C55) are always answered; of covered sentences exactly: an error where Tree has one, a crash where a digit 1-7 follows two plain letters, and a full answer otherwise"
  },
  {
   "property": "C40",
   "status": "partial",
   "theorems": [
    "C40_panic_refuted",
    "C40_crash_refuted",
    "C40_silent",
    "C40_says",
    "C40_panic_partial",
    "C40_supported_partial",
    "C40_first_order_partial",
    "C40_bridge",
    "C40_covered_partial",
    "C40_late_partial",
    "C40_every_partial"
   ],
   "note": "false as stated (\".miu gi? ro hui?\" and \".miu dai4\" panic), refuted; proved: what the bot says, when it keeps silent, no panic for supported sentences without digits, always an answer for first-order and covered ones (C55), a crash exactly where a digit 1-7 follows two plain letters in them, and what the bridge loses"
  },
  {
   "property": "C41",
   "status": "proved",
   "theorems": [
    "C41_one_error"
   ],
   "note": "errors before the first call of Tree or Text are not part of the statement: Word calls made earlier are not shown not to influence it"
  },
  {
   "property": "C42",
   "status": "proved",
   "theorems": [
    "C42_dedup"
   ],
   "note": ""
  },
  {
   "property": "C43",
   "status": "partial",
   "theorems": [
    "C43_message_refuted",
    "C43_results_partial",
    "C43_place_partial"
   ],
   "note": "false: the next message of Tree after DedupFails on \"hao? xx\" differs, refuted; proved: results and the place of errors do not change"
  },
  {
   "property": "C44",
   "status": "proved",
   "theorems": [
    "C44_message"
   ],
   "note": ""
  },
  {
   "property": "C45",
   "status": "proved",
   "theorems": [
    "C45_error",
    "C45_status"
   ],
   "note": ""
  },
  {
   "property": "C46",
   "status": "partial",
   "theorems": [
    "C46_crash_refuted",
    "C46_panic_refuted",
    "C46_hangs_refuted",
    "C46_full",
    "C46_panic_partial",
    "C46_supported_partial",
    "C46_first_order_partial",
    "C46_covered_partial",
    "C46_late_partial",
    "C46_every_partial"
   ],
   "note": "false as stated (crashes, panics, an endless loop), refuted; proved: the whole report if the status is 0, when it panics, no panic on supported sentences, a status on first-order and covered (C55) sentences, of the latter exactly: 1 where Tree has an error, a crash where a digit 1-7 follows two plain letters, 0 otherwise"
  },
  {
   "property": "C47",
   "status": "proved",
   "theorems": [
    "C47_dump"
   ],
   "note": ""
  },
  {
   "property": "C48",
   "status": "partial",
   "theorems": [
    "C48_meaning_partial",
    "C48_unique",
    "C48_text_partial"
   ],
   "note": "proved for first-order sentences (ScopeSpec.v); not covered: clauses, prefixes, prepositions, adverbs, roi, ja, hi and ke with variables, quotations. Of two connected arguments in one list the semantics describes what the code does (see C33)"
  },
  {
   "property": "C49",
   "status": "partial",
   "theorems": [
    "C49_notation_partial",
    "C49_text_partial",
    "C49_spoken",
    "C49_clauses_partial",
    "C49_clause_text_partial",
    "C49_stray_refuted",
    "C49_orderly_partial"
   ],
   "note": "proved for first-order sentences (ScopeSpec.v), and for covered sentences (Clauses.v) whose meaning has no variable outside what binds it, as all well-ordered sentences (Orderly.v); refuted for a covered sentence that has one"
  },
  {
   "property": "C50",
   "status": "partial",
   "theorems": [
    "C50_read_partial",
    "C50_text_partial",
    "C50_association_refuted",
    "C50_clauses_partial",
    "C50_orderly_partial",
    "C50_quotation_refuted"
   ],
   "note": "as C49, where no quotation contains the sign that ends it (with one that does it is refuted); that the association of connectives is determined is refuted"
  },
  {
   "property": "C51",
   "status": "proved",
   "theorems": [
    "C51_source",
    "C51_letters"
   ],
   "note": "of all nodes in memory, also those that are not part of the tree; letters: of parsed texts"
  },
  {
   "property": "C52",
   "status": "proved",
   "theorems": [
    "C52_groups",
    "C52_supported"
   ],
   "note": "of the combining marks, the vowels and q it is assumed that they are not punctuation"
  },
  {
   "property": "C53",
   "status": "proved",
   "theorems": [
    "C53_places"
   ],
   "note": ""
  },
  {
   "property": "C54",
   "status": "partial",
   "theorems": [
    "C54_word_overlaps_refuted",
    "C54_word_partial"
   ],
   "note": "false as stated (E of the word is the end of the white space), refuted; everything else is proved"
  },
  {
   "property": "C55",
   "status": "partial",
   "theorems": [
    "C55_meaning_partial",
    "C55_unique",
    "C55_text_partial"
   ],
   "note": "proved for covered sentences (Clauses.v), for which Interpret and String always return; not covered: hi before a predicate, mi, anything but words in serial predicates. What the semantics says of connected arguments of prepositions is what the code does (see C34)"
  },
  {
   "property": "C56",
   "status": "partial",
   "theorems": [
    "C56_refuted",
    "C56_restriction_refuted",
    "C56_partial",
    "C56_unique",
    "C56_text_partial",
    "C56_orderly_partial",
    "C56_scoped_partial"
   ],
   "note": "false as stated (a lambda whose variable is a predicate, a restriction that is an equation for another variable), refuted; proved for covered sentences without these, without variables in serial predicates, without properties whose argument comes after a missing one, and whose variables are in scope; well-ordered sentences (Orderly.v) are such"
  },
  {
   "property": "C57",
   "status": "proved",
   "theorems": [
    "C57_report",
    "C57_tree",
    "C57_readable"
   ],
   "note": ""
  },
  {
   "property": "C58",
   "status": "partial",
   "theorems": [
    "C58_generated_partial",
    "C58_response_partial",
    "C58_exact_partial",
    "C58_definition_refuted",
    "C58_file_refuted"
   ],
   "note": "false as stated (\"verdict.\" in a definition becomes \"ver\"; \"ict.\" after a soft hyphen gives an unreadable file), refuted; proved exactly when no quoted string contains \"dict.\", as when no string contains \"ict.\"; gofmt is a parameter that keeps what the source says"
  },
  {
   "property": "C59",
   "status": "partial",
   "theorems": [
    "C59_client",
    "C59_sent",
    "C59_error",
    "C59_ascii",
    "C59_error_refuted"
   ],
   "note": "false of errors: SimpleError cuts the text after ten bytes, which may be in the middle of a character, refuted; proved: the five members exactly for every text that parses, errors exactly if the message is UTF-8, as for requests in ASCII, and otherwise with U+FFFD for the bytes that are not"
  },
  {
   "property": "C60",
   "status": "proved",
   "theorems": [
    "C60_tones"
   ],
   "note": ""
  },
  {
   "property": "C61",
   "status": "proved",
   "theorems": [
    "C61_term_sets"
   ],
   "note": ""
  },
  {
   "property": "C62",
   "status": "proved",
   "theorems": [
    "C62_tree",
    "C62_text",
    "C62_reached",
    "C62_ast",
    "C62_calls"
   ],
   "note": ""
  },
  {
   "property": "C63",
   "status": "proved",
   "theorems": [
    "C63_word"
   ],
   "note": ""
  },
  {
   "property": "C64",
   "status": "partial",
   "theorems": [
    "C64_wants_refuted",
    "C64_farthest_refuted"
   ],
   "note": "false, refuted: after \"to \" the error asks for space and five words at the end of the text, but for space alone before a letter x, since the rule punctuation fails behind the letter it tried; no exact description of the wants is proved"
  }
 ]
}