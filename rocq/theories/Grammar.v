(** Generated by tools/gen_grammar.py from /repo/ast/toaq.peggy; do not edit.
    The grammar of /repo/ast/toaq.go, one entry per generated rule, numbered one
    more than the constants of toaq.go:10-415.  Each entry is preceded by the line
    of the rule (or template) in toaq.peggy and the line of the generated Accepts
    function in toaq.go; the Node, Fail and Action functions follow it there.
    tools/check_go.py compares all 1612 generated functions with this table. *)

From Coq Require Import String NArith PArith List FMapPositive.
From Verif Require Import PegSyntax.
Import ListNotations.
Open Scope string_scope.
Open Scope N_scope.

Definition rule_list : list (positive * rule) := [
  (* toaq.peggy:11, toaq.go:552 *)
  (1%positive, Rule "full_text" None
    (EAction AId [0]%nat (ESeq (ELabel 0 (ECall 2)) (ECall 225))));
  (* toaq.peggy:12, toaq.go:699 *)
  (2%positive, Rule "text" None
    (EAction AText [0; 1]%nat (ESeq (ELabel 0 (EOpt (ECall 74))) (ESeq (ELabel 1 (EOpt (ECall 3))) (EOpt (ECall 225))))));
  (* toaq.peggy:18, toaq.go:983 *)
  (3%positive, Rule "discourse" None
    (EPlus (ESub (EChoice (EAction AMod [0; 1]%nat (ESeq (ELabel 0 (ECall 5)) (ELabel 1 (ECall 72)))) (EAction AMod [2; 3]%nat (ESeq (ELabel 2 (ECall 4)) (ELabel 3 (ECall 72))))))));
  (* toaq.peggy:27, toaq.go:1604 *)
  (4%positive, Rule "fragment" None
    (EAction AMod [0; 6]%nat (ESeq (ELabel 0 (ESub (EChoice (EAction (ACoP CRelative) [1]%nat (ELabel 1 (ECall 226))) (EChoice (EAction AId [2]%nat (ELabel 2 (ECall 42))) (EChoice (EAction AId [3]%nat (ELabel 3 (ECall 16))) (EChoice (EAction AId [4]%nat (ELabel 4 (ECall 22))) (EAction AId [5]%nat (ELabel 5 (ECall 75))))))))) (ELabel 6 (ECall 72)))));
  (* toaq.peggy:35, toaq.go:2120 *)
  (5%positive, Rule "sentence" None
    (EChoice (EAction (ACoP CSentence) [0]%nat (ELabel 0 (ECall 227))) (ECall 6)));
  (* toaq.peggy:38, toaq.go:2318 *)
  (6%positive, Rule "sentence_1" None
    (EChoice (ECall 7) (EAction (ACoP CSentence) [0]%nat (ELabel 0 (ECall 228)))));
  (* toaq.peggy:41, toaq.go:2516 *)
  (7%positive, Rule "sentence_2" None
    (EAction AJE [0; 1]%nat (ESeq (ELabel 0 (EOpt (ECall 8))) (ELabel 1 (ECall 9)))));
  (* toaq.peggy:43, toaq.go:2722 *)
  (8%positive, Rule "sentence_prefix_spaces" None
    (EAction AMod [0; 1]%nat (ESeq (ELabel 0 (ECall 89)) (ELabel 1 (ECall 72)))));
  (* toaq.peggy:45, toaq.go:2891 *)
  (9%positive, Rule "sentence_3" None
    (EAction ASentence [0; 1; 2]%nat (ESeq (ELabel 0 (ECall 10)) (ESeq (ELabel 1 (ECall 72)) (ELabel 2 (EOpt (ECall 97)))))));
  (* toaq.peggy:48, toaq.go:3136 *)
  (10%positive, Rule "statement" None
    (EAction APrenexStmt [0; 1]%nat (ESeq (ELabel 0 (EOpt (ECall 15))) (ELabel 1 (ECall 11)))));
  (* toaq.peggy:49, toaq.go:3341 *)
  (11%positive, Rule "statement_1" None
    (EChoice (EAction (ACoP CStatement) [0]%nat (ELabel 0 (ECall 229))) (ECall 12)));
  (* toaq.peggy:52, toaq.go:3539 *)
  (12%positive, Rule "statement_2" None
    (EChoice (ECall 13) (EAction (ACoP CStatement) [0]%nat (ELabel 0 (ECall 230)))));
  (* toaq.peggy:55, toaq.go:3737 *)
  (13%positive, Rule "statement_3" None
    (EAction AEndPredication [0; 1; 2]%nat (ESeq (ELabel 0 (ECall 14)) (ESeq (ELabel 1 (ECall 72)) (ELabel 2 (EOpt (ECall 88)))))));
  (* toaq.peggy:57, toaq.go:3982 *)
  (14%positive, Rule "predication" None
    (EAction APredication [0; 1; 2]%nat (ESeq (ELabel 0 (ECall 17)) (ESeq (ELabel 1 (ECall 72)) (ELabel 2 (EOpt (ECall 22)))))));
  (* toaq.peggy:59, toaq.go:4227 *)
  (15%positive, Rule "prenex_spaces" None
    (EAction AMod [0; 1]%nat (ESeq (ELabel 0 (ECall 16)) (ELabel 1 (ECall 72)))));
  (* toaq.peggy:61, toaq.go:4396 *)
  (16%positive, Rule "prenex" None
    (EAction APrenex [0; 1; 2]%nat (ESeq (ELabel 0 (ECall 22)) (ESeq (ELabel 1 (ECall 72)) (ELabel 2 (ECall 90))))));
  (* toaq.peggy:68, toaq.go:4605 *)
  (17%positive, Rule "predicate" None
    (ECall 21));
  (* toaq.peggy:69, toaq.go:4689 *)
  (18%positive, Rule "predicate_1" None
    (EChoice (EAction (ACoP CPredicate) [0]%nat (ELabel 0 (ECall 231))) (ECall 19)));
  (* toaq.peggy:72, toaq.go:4887 *)
  (19%positive, Rule "predicate_2" None
    (EChoice (ECall 232) (EChoice (ECall 233) (EChoice (ECall 234) (EChoice (ECall 235) (EChoice (ECall 236) (ECall 20)))))));
  (* toaq.peggy:79, toaq.go:5176 *)
  (20%positive, Rule "predicate_3" None
    (EAction AMod [0; 1]%nat (ESeq (ELabel 0 (ECall 237)) (ELabel 1 (ECall 72)))));
  (* toaq.peggy:81, toaq.go:5345 *)
  (21%positive, Rule "serial_predicate" None
    (EChoice (ECall 238) (ECall 18)));
  (* toaq.peggy:91, toaq.go:5502 *)
  (22%positive, Rule "terms" None
    (EChoice (ECall 23) (EAction ATerms1 [0]%nat (ELabel 0 (ECall 24)))));
  (* toaq.peggy:94, toaq.go:5700 *)
  (23%positive, Rule "terms_2" None
    (EAction ATermsPrepend [0; 1; 2]%nat (ESeq (ELabel 0 (ECall 24)) (ESeq (ELabel 1 (ECall 72)) (ELabel 2 (ECall 22))))));
  (* toaq.peggy:96, toaq.go:5909 *)
  (24%positive, Rule "term" None
    (EChoice (EAction AId [0]%nat (ELabel 0 (ECall 25))) (EChoice (EAction AId [1]%nat (ELabel 1 (ECall 50))) (EChoice (EAction AId [2]%nat (ELabel 2 (ECall 27))) (EAction AId [3]%nat (ELabel 3 (ECall 55)))))));
  (* toaq.peggy:101, toaq.go:6272 *)
  (25%positive, Rule "linked_argument" None
    (EAction ALinked [0; 1]%nat (ESeq (ELabel 0 (EOpt (ECall 26))) (ELabel 1 (ECall 32)))));
  (* toaq.peggy:103, toaq.go:6477 *)
  (26%positive, Rule "linking_word_spaces" None
    (EAction AMod [0; 1]%nat (ESeq (ELabel 0 (ECall 95)) (ELabel 1 (ECall 72)))));
  (* toaq.peggy:105, toaq.go:6646 *)
  (27%positive, Rule "termset" None
    (EChoice (EAction (ACoP CTermSet) [0]%nat (ELabel 0 (ECall 239))) (EChoice (EAction (ACoP CTermSet) [1]%nat (ELabel 1 (ECall 240))) (EChoice (EAction (ACoP CTermSet) [2]%nat (ELabel 2 (ECall 241))) (EChoice (EAction (ACoP CTermSet) [3]%nat (ELabel 3 (ECall 242))) (EAction (ACoP CTermSet) [4]%nat (ELabel 4 (ECall 239))))))));
  (* toaq.peggy:111, toaq.go:7075 *)
  (28%positive, Rule "terms_II" None
    (EAction ATerms2 [0; 1; 2]%nat (ESeq (ELabel 0 (ECall 24)) (ESeq (ELabel 1 (ECall 72)) (ELabel 2 (ECall 24))))));
  (* toaq.peggy:113, toaq.go:7284 *)
  (29%positive, Rule "terms_III" None
    (EAction ATermsPrepend [0; 1; 2]%nat (ESeq (ELabel 0 (ECall 24)) (ESeq (ELabel 1 (ECall 72)) (ELabel 2 (ECall 28))))));
  (* toaq.peggy:115, toaq.go:7493 *)
  (30%positive, Rule "terms_IV" None
    (EAction ATermsPrepend [0; 1; 2]%nat (ESeq (ELabel 0 (ECall 24)) (ESeq (ELabel 1 (ECall 72)) (ELabel 2 (ECall 29))))));
  (* toaq.peggy:117, toaq.go:7702 *)
  (31%positive, Rule "terms_V" None
    (EAction ATermsPrepend [0; 1; 2]%nat (ESeq (ELabel 0 (ECall 24)) (ESeq (ELabel 1 (ECall 72)) (ELabel 2 (ECall 30))))));
  (* toaq.peggy:124, toaq.go:7911 *)
  (32%positive, Rule "argument" None
    (EChoice (EAction (ACoP CArgument) [0]%nat (ELabel 0 (ECall 243))) (ECall 33)));
  (* toaq.peggy:127, toaq.go:8109 *)
  (33%positive, Rule "arg_1" None
    (EChoice (EAction (ACoP CArgument) [0]%nat (ELabel 0 (ECall 244))) (ECall 34)));
  (* toaq.peggy:130, toaq.go:8307 *)
  (34%positive, Rule "arg_2" None
    (EAction AFocus [0; 1]%nat (ESeq (ELabel 0 (EOpt (ECall 35))) (ELabel 1 (ECall 36)))));
  (* toaq.peggy:132, toaq.go:8512 *)
  (35%positive, Rule "focus_spaces" None
    (EAction AMod [0; 1]%nat (ESeq (ELabel 0 (ECall 85)) (ELabel 1 (ECall 72)))));
  (* toaq.peggy:134, toaq.go:8681 *)
  (36%positive, Rule "arg_3" None
    (EAction AQuant [0; 1]%nat (ESeq (ELabel 0 (EOpt (ECall 37))) (ELabel 1 (ECall 38)))));
  (* toaq.peggy:136, toaq.go:8886 *)
  (37%positive, Rule "quantifier_spaces" None
    (EAction AMod [0; 1]%nat (ESeq (ELabel 0 (ECall 99)) (ELabel 1 (ECall 72)))));
  (* toaq.peggy:138, toaq.go:9055 *)
  (38%positive, Rule "arg_4" None
    (EAction AArgRel [0; 1; 2]%nat (ESeq (ELabel 0 (ECall 39)) (ESeq (ELabel 1 (ECall 72)) (ELabel 2 (EOpt (ECall 42)))))));
  (* toaq.peggy:140, toaq.go:9300 *)
  (39%positive, Rule "arg_5" None
    (EAction AArg [0]%nat (ELabel 0 (ESub (EChoice (ECall 245) (ECall 40))))));
  (* toaq.peggy:142, toaq.go:9508 *)
  (40%positive, Rule "arg_6" None
    (EChoice (EAction AId [0]%nat (ELabel 0 (ECall 63))) (EChoice (ECall 246) (EChoice (ECall 247) (EChoice (ECall 248) (EChoice (ECall 249) (EChoice (ECall 250) (EChoice (ECall 251) (ECall 41)))))))));
  (* toaq.peggy:152, toaq.go:9904 *)
  (41%positive, Rule "arg_7" None
    (ECall 252));
  (* toaq.peggy:158, toaq.go:9988 *)
  (42%positive, Rule "relative_clause" None
    (EChoice (EAction (ACoP CRelative) [0]%nat (ELabel 0 (ECall 226))) (EChoice (EAction (ALU LRelative) [1]%nat (ELabel 1 (ECall 253))) (ECall 43))));
  (* toaq.peggy:162, toaq.go:10252 *)
  (43%positive, Rule "relative_clause_1" None
    (EChoice (EAction (ACoP CRelative) [0]%nat (ELabel 0 (ECall 254))) (ECall 44)));
  (* toaq.peggy:165, toaq.go:10450 *)
  (44%positive, Rule "relative_clause_2" None
    (EChoice (EAction (ACoP CRelative) [0]%nat (ELabel 0 (ECall 255))) (EAction AId [1]%nat (ELabel 1 (ECall 45)))));
  (* toaq.peggy:168, toaq.go:10681 *)
  (45%positive, Rule "relative_clause_3" None
    (EAction APredRel [0; 1; 2]%nat (ESeq (ELabel 0 (ECall 46)) (ESeq (ELabel 1 (ECall 72)) (ELabel 2 (EOpt (ECall 88)))))));
  (* toaq.peggy:170, toaq.go:10926 *)
  (46%positive, Rule "relative_predication" None
    (EAction APredication [0; 1; 2]%nat (ESeq (ELabel 0 (ECall 47)) (ESeq (ELabel 1 (ECall 72)) (ELabel 2 (EOpt (ECall 22)))))));
  (* toaq.peggy:173, toaq.go:11171 *)
  (47%positive, Rule "relative_predicate" None
    (EChoice (ECall 256) (ECall 48)));
  (* toaq.peggy:175, toaq.go:11328 *)
  (48%positive, Rule "relative_predicate_1" None
    (EChoice (ECall 257) (EChoice (ECall 258) (ECall 49))));
  (* toaq.peggy:179, toaq.go:11518 *)
  (49%positive, Rule "relative_predicate_2" None
    (EChoice (ECall 259) (EChoice (ECall 260) (EChoice (ECall 261) (ECall 262)))));
  (* toaq.peggy:189, toaq.go:11741 *)
  (50%positive, Rule "adverb" None
    (EChoice (EAction (ACoP CAdverb) [0]%nat (ELabel 0 (ECall 263))) (ECall 51)));
  (* toaq.peggy:192, toaq.go:11939 *)
  (51%positive, Rule "adverb_1" None
    (EChoice (EAction (ACoP CAdverb) [0]%nat (ELabel 0 (ECall 264))) (ECall 52)));
  (* toaq.peggy:195, toaq.go:12137 *)
  (52%positive, Rule "adverb_2" None
    (EAction AAdverb [0]%nat (ELabel 0 (ESub (EChoice (ECall 265) (ECall 53))))));
  (* toaq.peggy:197, toaq.go:12345 *)
  (53%positive, Rule "adverb_3" None
    (EChoice (ECall 266) (EChoice (ECall 267) (EChoice (ECall 268) (EChoice (ECall 269) (EChoice (ECall 270) (EChoice (ECall 271) (ECall 54))))))));
  (* toaq.peggy:206, toaq.go:12667 *)
  (54%positive, Rule "adverb_4" None
    (ECall 272));
  (* toaq.peggy:212, toaq.go:12751 *)
  (55%positive, Rule "prepositional_phrase" None
    (EChoice (EAction (ACoP CPreposition) [0]%nat (ELabel 0 (ECall 273))) (ECall 56)));
  (* toaq.peggy:215, toaq.go:12949 *)
  (56%positive, Rule "prepositional_phrase_1" None
    (EChoice (EAction (ACoP CPreposition) [0]%nat (ELabel 0 (ECall 274))) (ECall 57)));
  (* toaq.peggy:218, toaq.go:13147 *)
  (57%positive, Rule "prepositional_phrase_2" None
    (EAction APrep [0; 1; 2]%nat (ESeq (ELabel 0 (ECall 58)) (ESeq (ELabel 1 (ECall 72)) (ELabel 2 (ECall 32))))));
  (* toaq.peggy:221, toaq.go:13356 *)
  (58%positive, Rule "preposition" None
    (EChoice (EAction (ACoP CPredicate) [0]%nat (ELabel 0 (ECall 275))) (ECall 59)));
  (* toaq.peggy:224, toaq.go:13554 *)
  (59%positive, Rule "preposition_1" None
    (EChoice (EAction (ACoP CPredicate) [0]%nat (ELabel 0 (ECall 276))) (ECall 60)));
  (* toaq.peggy:227, toaq.go:13752 *)
  (60%positive, Rule "preposition_2" None
    (EChoice (ECall 277) (ECall 61)));
  (* toaq.peggy:229, toaq.go:13909 *)
  (61%positive, Rule "preposition_3" None
    (EChoice (ECall 278) (EChoice (ECall 279) (EChoice (ECall 280) (EChoice (ECall 281) (EChoice (ECall 282) (EChoice (ECall 283) (ECall 62))))))));
  (* toaq.peggy:237, toaq.go:14231 *)
  (62%positive, Rule "preposition_4" None
    (ECall 284));
  (* toaq.peggy:243, toaq.go:14315 *)
  (63%positive, Rule "content_clause" None
    (EChoice (EAction (ACoP CContent) [0]%nat (ELabel 0 (ECall 285))) (ECall 64)));
  (* toaq.peggy:246, toaq.go:14513 *)
  (64%positive, Rule "content_clause_1" None
    (EChoice (EAction AId [0]%nat (ELabel 0 (ECall 65))) (EAction (ALU LContent) [1]%nat (ELabel 1 (ECall 286)))));
  (* toaq.peggy:249, toaq.go:14744 *)
  (65%positive, Rule "content_statement" None
    (EAction APredContent [0; 1; 2]%nat (ESeq (ELabel 0 (ECall 66)) (ESeq (ELabel 1 (ECall 72)) (ELabel 2 (EOpt (ECall 88)))))));
  (* toaq.peggy:251, toaq.go:14989 *)
  (66%positive, Rule "content_predication" None
    (EAction APredication [0; 1; 2]%nat (ESeq (ELabel 0 (ECall 67)) (ESeq (ELabel 1 (ECall 72)) (ELabel 2 (EOpt (ECall 22)))))));
  (* toaq.peggy:254, toaq.go:15234 *)
  (67%positive, Rule "content_predicate" None
    (EChoice (ECall 287) (ECall 68)));
  (* toaq.peggy:256, toaq.go:15391 *)
  (68%positive, Rule "content_predicate_1" None
    (EChoice (ECall 288) (EChoice (ECall 289) (ECall 69))));
  (* toaq.peggy:260, toaq.go:15581 *)
  (69%positive, Rule "content_predicate_2" None
    (EChoice (ECall 290) (EChoice (ECall 291) (EChoice (ECall 292) (ECall 293)))));
  (* toaq.peggy:286, toaq.go:15804 *)
  (70%positive, Rule "forethought_connective" None
    (EAction AConnector [0; 1; 2]%nat (ESeq (ELabel 0 (ECall 101)) (ESeq (ELabel 1 (ECall 72)) (ELabel 2 (ECall 96))))));
  (* toaq.peggy:307, toaq.go:16013 *)
  (71%positive, Rule "MI_complement" None
    (EChoice (EAction AId [0]%nat (ELabel 0 (ECall 17))) (EChoice (EAction AId [1]%nat (ELabel 1 (ECall 32))) (EChoice (EAction AId [2]%nat (ELabel 2 (ECall 50))) (EAction AId [3]%nat (ELabel 3 (ECall 55)))))));
  (* toaq.peggy:334, toaq.go:16376 *)
  (72%positive, Rule "_" None
    (EOpt (ECall 73)));
  (* toaq.peggy:335, toaq.go:16487 *)
  (73%positive, Rule "space_or_freemod" None
    (EAction AMod [0; 1]%nat (ESeq (ELabel 0 (ESub (EChoice (ECall 75) (ECall 74)))) (ELabel 1 (EOpt (ECall 73))))));
  (* toaq.peggy:337, toaq.go:16775 *)
  (74%positive, Rule "space_word" None
    (EAction ASpace [0]%nat (ELabel 0 (EPlus (ECall 222)))));
  (* toaq.peggy:339, toaq.go:16959 *)
  (75%positive, Rule "freemod" None
    (EChoice (EAction AId [0]%nat (ELabel 0 (ECall 100))) (EChoice (EAction AId [1]%nat (ELabel 1 (ECall 76))) (EChoice (EAction AId [2]%nat (ELabel 2 (ECall 78))) (EAction AId [3]%nat (ELabel 3 (ECall 79)))))));
  (* toaq.peggy:344, toaq.go:17322 *)
  (76%positive, Rule "parenthetical" None
    (EAction AEndParen [0; 1; 2]%nat (ESeq (ELabel 0 (ECall 77)) (ESeq (ELabel 1 (ECall 72)) (ELabel 2 (ECall 93))))));
  (* toaq.peggy:346, toaq.go:17531 *)
  (77%positive, Rule "parenthetical_1" None
    (EAction AParen [0; 1; 2]%nat (ESeq (ELabel 0 (ECall 92)) (ESeq (ELabel 1 (ECall 72)) (ELabel 2 (ECall 3))))));
  (* toaq.peggy:348, toaq.go:17740 *)
  (78%positive, Rule "incidental" None
    (EAction AIncidental [0; 1; 2]%nat (ESeq (ELabel 0 (ECall 91)) (ESeq (ELabel 1 (ECall 72)) (ELabel 2 (ECall 10))))));
  (* toaq.peggy:350, toaq.go:17949 *)
  (79%positive, Rule "vocative" None
    (EAction AVocative [0; 1; 2]%nat (ESeq (ELabel 0 (ECall 94)) (ESeq (ELabel 1 (ECall 72)) (ELabel 2 (ECall 32))))));
  (* toaq.peggy:357, toaq.go:18158 *)
  (80%positive, Rule "word" None
    (EAction AWordSpace [0; 1]%nat (ESeq (ELabel 0 (ESub (EChoice (ECall 81) (EChoice (ECall 83) (ECall 82))))) (ELabel 1 (EOpt (ECall 74))))));
  (* toaq.peggy:366, toaq.go:18479 *)
  (81%positive, Rule "non_function_word" None
    (EChoice (ESeq (ECall 84) (EPlus (ECall 126))) (ESeq (ENot (ECall 102)) (ECall 84))));
  (* toaq.peggy:368, toaq.go:18798 *)
  (82%positive, Rule "neutral_function_word" None
    (ESeq (ENot (ECall 83)) (ESeq (EAnd (ECall 102)) (ECall 124))));
  (* toaq.peggy:370, toaq.go:19031 *)
  (83%positive, Rule "toned_function_word" None
    (ESeq (ENot (ECall 124)) (ESub (EChoice (ECall 115) (EChoice (ECall 116) (EChoice (ECall 117) (ECall 119)))))));
  (* toaq.peggy:372, toaq.go:19339 *)
  (84%positive, Rule "initial_syllable" None
    (EChoice (ECall 127) (EChoice (ECall 128) (EChoice (ECall 129) (EChoice (ECall 130) (EChoice (ECall 131) (ECall 132)))))));
  (* toaq.peggy:380, toaq.go:19628 *)
  (85%positive, Rule "focus" None
    (EAction AWord [0]%nat (ESeq (EAnd (ECall 111)) (ELabel 0 (ECall 124)))));
  (* toaq.peggy:381, toaq.go:19829 *)
  (86%positive, Rule "end_quote" None
    (EAction AWord [0]%nat (ESeq (EAnd (ECall 123)) (ELabel 0 (ECall 124)))));
  (* toaq.peggy:382, toaq.go:20030 *)
  (87%positive, Rule "end_predicatizer" None
    (EAction AWord [0]%nat (ESeq (EAnd (ECall 106)) (ELabel 0 (ECall 124)))));
  (* toaq.peggy:383, toaq.go:20231 *)
  (88%positive, Rule "end_statement" None
    (EAction AWord [0]%nat (ESeq (EAnd (ECall 118)) (ELabel 0 (ECall 124)))));
  (* toaq.peggy:384, toaq.go:20432 *)
  (89%positive, Rule "sentence_prefix" None
    (EAction AWord [0]%nat (ESeq (EAnd (ECall 114)) (ELabel 0 (ECall 124)))));
  (* toaq.peggy:385, toaq.go:20633 *)
  (90%positive, Rule "end_prenex" None
    (EAction AWord [0]%nat (ESeq (EAnd (ECall 103)) (ELabel 0 (ECall 124)))));
  (* toaq.peggy:386, toaq.go:20834 *)
  (91%positive, Rule "start_incidental" None
    (EAction AWord [0]%nat (ESeq (EAnd (ECall 110)) (ELabel 0 (ECall 124)))));
  (* toaq.peggy:387, toaq.go:21035 *)
  (92%positive, Rule "start_parenthetical" None
    (EAction AWord [0]%nat (ESeq (EAnd (ECall 113)) (ELabel 0 (ECall 124)))));
  (* toaq.peggy:388, toaq.go:21236 *)
  (93%positive, Rule "end_parenthetical" None
    (EAction AWord [0]%nat (ESeq (EAnd (ECall 112)) (ELabel 0 (ECall 124)))));
  (* toaq.peggy:389, toaq.go:21437 *)
  (94%positive, Rule "vocative_marker" None
    (EAction AWord [0]%nat (ESeq (EAnd (ECall 109)) (ELabel 0 (ECall 124)))));
  (* toaq.peggy:390, toaq.go:21638 *)
  (95%positive, Rule "linking_word" None
    (EAction AWord [0]%nat (ESeq (EAnd (ECall 107)) (ELabel 0 (ECall 124)))));
  (* toaq.peggy:391, toaq.go:21839 *)
  (96%positive, Rule "connective" None
    (EAction AWord [0]%nat (ESeq (EAnd (ECall 120)) (ELabel 0 (ECall 124)))));
  (* toaq.peggy:393, toaq.go:22040 *)
  (97%positive, Rule "illocutionary" None
    (EChoice (EAction AWord [0]%nat (ESeq (EAnd (ECall 104)) (ELabel 0 (ECall 124)))) (EAction AMod [1; 2]%nat (ESeq (ELabel 1 (ECall 98)) (ELabel 2 (ESub (EOpt (ECall 224))))))));
  (* toaq.peggy:396, toaq.go:22437 *)
  (98%positive, Rule "moq" None
    (EAction AWord [0]%nat (ESeq (EAnd (ECall 105)) (ELabel 0 (ECall 125)))));
  (* toaq.peggy:397, toaq.go:22638 *)
  (99%positive, Rule "quantifier" None
    (EAction AWord [0]%nat (ESeq (EAnd (ECall 121)) (ELabel 0 (ECall 124)))));
  (* toaq.peggy:398, toaq.go:22839 *)
  (100%positive, Rule "interjection" None
    (EAction AInterjection [0]%nat (ESeq (EAnd (ECall 108)) (ELabel 0 (ECall 124)))));
  (* toaq.peggy:399, toaq.go:23040 *)
  (101%positive, Rule "forethought_marker" None
    (EAction AWord [0]%nat (ESeq (EAnd (ECall 122)) (ELabel 0 (ECall 124)))));
  (* toaq.peggy:404, toaq.go:23241 *)
  (102%positive, Rule "function_word" None
    (EChoice (ECall 103) (EChoice (ECall 104) (EChoice (ECall 106) (EChoice (ECall 107) (EChoice (ECall 108) (EChoice (ECall 109) (EChoice (ECall 110) (EChoice (ECall 111) (EChoice (ECall 112) (EChoice (ECall 113) (EChoice (ECall 114) (EChoice (ECall 115) (EChoice (ECall 116) (EChoice (ECall 117) (EChoice (ECall 105) (EChoice (ECall 118) (EChoice (ECall 119) (EChoice (ECall 120) (EChoice (ECall 121) (EChoice (ECall 122) (ECall 123))))))))))))))))))))));
  (* toaq.peggy:405, toaq.go:24025 *)
  (103%positive, Rule "BI" None
    (ESeq (ESub (EChoice (ESeq (ECall 200) (ECall 146)) (ESeq (ECall 214) (ECall 144)))) (EAnd (ESub (ESeq (EOpt (ECall 143)) (ECall 133))))));
  (* toaq.peggy:406, toaq.go:24396 *)
  (104%positive, Rule "DA" None
    (ESeq (ESub (EChoice (ESeq (ECall 202) (ECall 144)) (EChoice (ESeq (ECall 209) (ECall 144)) (EChoice (ESeq (ECall 217) (ECall 147)) (ESeq (ECall 200) (ECall 144)))))) (EAnd (ESub (ESeq (EOpt (ECall 143)) (ECall 133))))));
  (* toaq.peggy:407, toaq.go:24889 *)
  (105%positive, Rule "MOQ" None
    (ESeq (ECall 211) (ESeq (ECall 147) (ESeq (ECall 215) (EAnd (ESub (ESeq (EOpt (ESub (EChoice (ECall 224) (ECall 143)))) (ECall 133))))))));
  (* toaq.peggy:408, toaq.go:25240 *)
  (106%positive, Rule "GA" None
    (ESeq (ECall 205) (ESeq (ECall 144) (EAnd (ESub (ESeq (EOpt (ECall 143)) (ECall 133)))))));
  (* toaq.peggy:409, toaq.go:25492 *)
  (107%positive, Rule "GO" None
    (ESeq (ESub (EChoice (ESeq (ECall 205) (ECall 147)) (EChoice (ESeq (ECall 204) (ECall 146)) (EChoice (ESeq (ECall 201) (ECall 145)) (ESeq (ECall 218) (ECall 144)))))) (EAnd (ESub (ESeq (EOpt (ECall 143)) (ECall 133))))));
  (* toaq.peggy:410, toaq.go:25985 *)
  (108%positive, Rule "BEI" None
    (ESeq (ESub (EChoice (ESeq (ECall 200) (ESeq (ECall 148) (ECall 207))) (ECall 211))) (EAnd (ESub (ESeq (EOpt (ECall 143)) (ECall 133))))));
  (* toaq.peggy:411, toaq.go:26348 *)
  (109%positive, Rule "HU" None
    (ESeq (ECall 206) (ESeq (ECall 145) (EAnd (ESub (ESeq (EOpt (ECall 143)) (ECall 133)))))));
  (* toaq.peggy:412, toaq.go:26600 *)
  (110%positive, Rule "JU" None
    (ESeq (ECall 208) (ESeq (ECall 145) (EAnd (ESub (ESeq (EOpt (ECall 143)) (ECall 133)))))));
  (* toaq.peggy:413, toaq.go:26852 *)
  (111%positive, Rule "KU" None
    (ESeq (ECall 209) (ESeq (ECall 145) (EAnd (ESub (ESeq (EOpt (ECall 143)) (ECall 133)))))));
  (* toaq.peggy:414, toaq.go:27104 *)
  (112%positive, Rule "KI" None
    (ESeq (ECall 209) (ESeq (ECall 146) (EAnd (ESub (ESeq (EOpt (ECall 143)) (ECall 133)))))));
  (* toaq.peggy:415, toaq.go:27356 *)
  (113%positive, Rule "KIO" None
    (ESeq (ECall 209) (ESeq (ECall 146) (ESeq (ECall 213) (EAnd (ESub (ESeq (EOpt (ECall 143)) (ECall 133))))))));
  (* toaq.peggy:416, toaq.go:27628 *)
  (114%positive, Rule "KEO" None
    (ESeq (ESub (EChoice (ESeq (ECall 209) (ESeq (ECall 148) (ECall 213))) (ESeq (ECall 208) (ECall 148)))) (EAnd (ESub (ESeq (EOpt (ECall 143)) (ECall 133))))));
  (* toaq.peggy:417, toaq.go:28019 *)
  (115%positive, Rule "LU" None
    (ESeq (ESub (EChoice (ESeq (ECall 210) (ECall 145)) (EChoice (ESeq (ECall 210) (ECall 146)) (EChoice (ESeq (ECall 210) (ECall 147)) (EChoice (ESeq (ECall 211) (ECall 144)) (ESeq (ECall 218) (ESeq (ECall 146) (ECall 213)))))))) (EAnd (ESub (ESeq (EOpt (ECall 143)) (ECall 133))))));
  (* toaq.peggy:418, toaq.go:28593 *)
  (116%positive, Rule "MI" None
    (ESeq (ESub (EChoice (ESeq (ECall 211) (ECall 146)) (ESeq (ECall 217) (ESeq (ECall 206) (ECall 145))))) (EAnd (ESub (ESeq (EOpt (ECall 143)) (ECall 133))))));
  (* toaq.peggy:419, toaq.go:28984 *)
  (117%positive, Rule "MO" None
    (ESeq (ECall 211) (ESeq (ECall 147) (EAnd (ESub (ESeq (EOpt (ECall 143)) (ECall 133)))))));
  (* toaq.peggy:420, toaq.go:29236 *)
  (118%positive, Rule "NA" None
    (ESeq (ECall 212) (ESeq (ECall 144) (EAnd (ESub (ESeq (EOpt (ECall 143)) (ECall 133)))))));
  (* toaq.peggy:421, toaq.go:29488 *)
  (119%positive, Rule "PO" None
    (ESeq (ESub (EChoice (ESeq (ECall 208) (ESeq (ECall 148) (ECall 207))) (ESeq (ECall 214) (ECall 147)))) (EAnd (ESub (ESeq (EOpt (ECall 143)) (ECall 133))))));
  (* toaq.peggy:422, toaq.go:29879 *)
  (120%positive, Rule "RA" None
    (ESeq (ESub (EChoice (ESeq (ECall 216) (ECall 144)) (EChoice (ESeq (ECall 216) (ECall 145)) (EChoice (ESeq (ECall 216) (ECall 146)) (EChoice (ESeq (ECall 216) (ESeq (ECall 147) (ECall 207))) (EChoice (ESeq (ECall 216) (ECall 147)) (ESeq (ECall 216) (ECall 148)))))))) (EAnd (ESub (ESeq (EOpt (ECall 143)) (ECall 133))))));
  (* toaq.peggy:423, toaq.go:30514 *)
  (121%positive, Rule "TU" None
    (ESeq (ESub (EChoice (ESeq (ECall 209) (ECall 148)) (EChoice (ESeq (ECall 218) (ECall 145)) (EChoice (ESeq (ECall 217) (ESeq (ECall 146) (ECall 199))) (EChoice (ESeq (ECall 217) (ECall 144)) (EChoice (ESeq (ECall 206) (ECall 146)) (ESeq (ECall 208) (ECall 144)))))))) (EAnd (ESub (ESeq (EOpt (ECall 143)) (ECall 133))))));
  (* toaq.peggy:424, toaq.go:31149 *)
  (122%positive, Rule "TO" None
    (ESeq (ECall 218) (ESeq (ECall 147) (EAnd (ECall 133)))));
  (* toaq.peggy:425, toaq.go:31335 *)
  (123%positive, Rule "TEO" None
    (ESeq (ECall 218) (ESeq (ECall 148) (ESeq (ECall 213) (EAnd (ESub (ESeq (EOpt (ECall 143)) (ECall 133))))))));
  (* toaq.peggy:428, toaq.go:31607 *)
  (124%positive, Rule "neutral_syllable" None
    (ESeq (ECall 134) (ESeq (ECall 135) (EAnd (ECall 133)))));
  (* toaq.peggy:430, toaq.go:31793 *)
  (125%positive, Rule "moq_syllable" None
    (ESeq (ECall 134) (ESeq (ECall 135) (EAnd (ESub (EChoice (ESeq (ECall 224) (ECall 133)) (ECall 133)))))));
  (* toaq.peggy:431, toaq.go:32080 *)
  (126%positive, Rule "compound_syllable" None
    (ECall 294));
  (* toaq.peggy:432, toaq.go:32164 *)
  (127%positive, Rule "arg_syllable" None
    (ECall 295));
  (* toaq.peggy:433, toaq.go:32248 *)
  (128%positive, Rule "relative_syllable" None
    (ECall 296));
  (* toaq.peggy:434, toaq.go:32332 *)
  (129%positive, Rule "verb_syllable" None
    (ECall 297));
  (* toaq.peggy:435, toaq.go:32416 *)
  (130%positive, Rule "content_syllable" None
    (ECall 298));
  (* toaq.peggy:436, toaq.go:32500 *)
  (131%positive, Rule "preposition_syllable" None
    (ECall 299));
  (* toaq.peggy:437, toaq.go:32584 *)
  (132%positive, Rule "adverb_syllable" None
    (ECall 300));
  (* toaq.peggy:439, toaq.go:32668 *)
  (133%positive, Rule "boundary" None
    (EAction AEmpty []%nat (ESub (EChoice (ECall 134) (EChoice (ECall 222) (ECall 225))))));
  (* toaq.peggy:441, toaq.go:32873 *)
  (134%positive, Rule "initial" None
    (EChoice (ECall 200) (EChoice (ESeq (ECall 201) (ECall 206)) (EChoice (ECall 201) (EChoice (ECall 202) (EChoice (ECall 204) (EChoice (ECall 205) (EChoice (ECall 206) (EChoice (ECall 208) (EChoice (ECall 209) (EChoice (ECall 210) (EChoice (ECall 211) (EChoice (ECall 212) (EChoice (ECall 214) (EChoice (ECall 216) (EChoice (ESeq (ECall 217) (ECall 206)) (EChoice (ECall 217) (ECall 218))))))))))))))))));
  (* toaq.peggy:449, toaq.go:33581 *)
  (135%positive, Rule "neutral_desinence" None
    (ECall 301));
  (* toaq.peggy:450, toaq.go:33665 *)
  (136%positive, Rule "compound_desinence" None
    (ECall 302));
  (* toaq.peggy:451, toaq.go:33749 *)
  (137%positive, Rule "arg_desinence" None
    (ECall 303));
  (* toaq.peggy:452, toaq.go:33833 *)
  (138%positive, Rule "relative_desinence" None
    (ECall 304));
  (* toaq.peggy:453, toaq.go:33917 *)
  (139%positive, Rule "verb_desinence" None
    (ECall 305));
  (* toaq.peggy:454, toaq.go:34001 *)
  (140%positive, Rule "content_desinence" None
    (ECall 306));
  (* toaq.peggy:455, toaq.go:34085 *)
  (141%positive, Rule "preposition_desinence" None
    (ECall 307));
  (* toaq.peggy:456, toaq.go:34169 *)
  (142%positive, Rule "adverb_desinence" None
    (ECall 308));
  (* toaq.peggy:458, toaq.go:34253 *)
  (143%positive, Rule "tone" None
    (EChoice (ECall 155) (EChoice (ECall 162) (EChoice (ECall 177) (EChoice (ECall 170) (EChoice (ECall 198) (EChoice (ECall 191) (ECall 184))))))));
  (* toaq.peggy:460, toaq.go:34575 *)
  (144%positive, Rule "A" None
    (EChoice (ECall 149) (EChoice (ECall 156) (EChoice (ECall 163) (EChoice (ECall 171) (EChoice (ECall 178) (EChoice (ECall 185) (EChoice (ECall 192) (ECall 199)))))))));
  (* toaq.peggy:461, toaq.go:34930 *)
  (145%positive, Rule "U" None
    (EChoice (ECall 150) (EChoice (ECall 157) (EChoice (ECall 164) (EChoice (ECall 172) (EChoice (ECall 179) (EChoice (ECall 186) (EChoice (ECall 193) (ECall 219)))))))));
  (* toaq.peggy:462, toaq.go:35285 *)
  (146%positive, Rule "I" None
    (EChoice (ECall 151) (EChoice (ECall 158) (EChoice (ECall 165) (EChoice (ECall 173) (EChoice (ECall 180) (EChoice (ECall 187) (EChoice (ECall 194) (ECall 207)))))))));
  (* toaq.peggy:463, toaq.go:35640 *)
  (147%positive, Rule "O" None
    (EChoice (ECall 152) (EChoice (ECall 159) (EChoice (ECall 166) (EChoice (ECall 174) (EChoice (ECall 181) (EChoice (ECall 188) (EChoice (ECall 195) (ECall 213)))))))));
  (* toaq.peggy:464, toaq.go:35995 *)
  (148%positive, Rule "E" None
    (EChoice (ECall 153) (EChoice (ECall 160) (EChoice (ECall 167) (EChoice (ECall 175) (EChoice (ECall 182) (EChoice (ECall 189) (EChoice (ECall 196) (ECall 203)))))))));
  (* toaq.peggy:466, toaq.go:36350 *)
  (149%positive, Rule "ā" None
    (EChoice (EClass [257; 256]) (EAction (ADiacritic 45) [0]%nat (ESeq (ELabel 0 (ECall 199)) (ESub (EChoice (ECall 154) (ECall 155)))))));
  (* toaq.peggy:467, toaq.go:36663 *)
  (150%positive, Rule "ū" None
    (EChoice (EClass [363; 362]) (EAction (ADiacritic 45) [0]%nat (ESeq (ELabel 0 (ECall 219)) (ESub (EChoice (ECall 154) (ECall 155)))))));
  (* toaq.peggy:468, toaq.go:36976 *)
  (151%positive, Rule "ī" None
    (EChoice (EClass [299; 298]) (EAction (ADiacritic 45) [0]%nat (ESeq (ELabel 0 (ECall 207)) (ESub (EChoice (ECall 154) (ECall 155)))))));
  (* toaq.peggy:469, toaq.go:37289 *)
  (152%positive, Rule "ō" None
    (EChoice (EClass [333; 332]) (EAction (ADiacritic 45) [0]%nat (ESeq (ELabel 0 (ECall 213)) (ESub (EChoice (ECall 154) (ECall 155)))))));
  (* toaq.peggy:470, toaq.go:37602 *)
  (153%positive, Rule "ē" None
    (EChoice (EClass [275; 274]) (EAction (ADiacritic 45) [0]%nat (ESeq (ELabel 0 (ECall 203)) (ESub (EChoice (ECall 154) (ECall 155)))))));
  (* toaq.peggy:471, toaq.go:37915 *)
  (154%positive, Rule "macron_combiner" (Some "◌̄")
    (ELit "̄"));
  (* toaq.peggy:472, toaq.go:38013 *)
  (155%positive, Rule "compound_tone" None
    (EClass [45; 49]));
  (* toaq.peggy:474, toaq.go:38111 *)
  (156%positive, Rule "á" None
    (EChoice (EClass [225; 193]) (EAction (ADiacritic 47) [0]%nat (ESeq (ELabel 0 (ECall 199)) (ESub (EChoice (ECall 161) (ECall 162)))))));
  (* toaq.peggy:475, toaq.go:38424 *)
  (157%positive, Rule "ú" None
    (EChoice (EClass [250; 218]) (EAction (ADiacritic 47) [0]%nat (ESeq (ELabel 0 (ECall 219)) (ESub (EChoice (ECall 161) (ECall 162)))))));
  (* toaq.peggy:476, toaq.go:38737 *)
  (158%positive, Rule "í" None
    (EChoice (EClass [237; 205]) (EAction (ADiacritic 47) [0]%nat (ESeq (ELabel 0 (ECall 207)) (ESub (EChoice (ECall 161) (ECall 162)))))));
  (* toaq.peggy:477, toaq.go:39050 *)
  (159%positive, Rule "ó" None
    (EChoice (EClass [243; 211]) (EAction (ADiacritic 47) [0]%nat (ESeq (ELabel 0 (ECall 213)) (ESub (EChoice (ECall 161) (ECall 162)))))));
  (* toaq.peggy:478, toaq.go:39363 *)
  (160%positive, Rule "é" None
    (EChoice (EClass [233; 201]) (EAction (ADiacritic 47) [0]%nat (ESeq (ELabel 0 (ECall 203)) (ESub (EChoice (ECall 161) (ECall 162)))))));
  (* toaq.peggy:479, toaq.go:39676 *)
  (161%positive, Rule "acute_combiner" (Some "◌́")
    (ELit "́"));
  (* toaq.peggy:480, toaq.go:39774 *)
  (162%positive, Rule "arg_tone" None
    (EClass [47; 50]));
  (* toaq.peggy:484, toaq.go:39872 *)
  (163%positive, Rule "ǎ" None
    (EChoice (EClass [462; 461; 259; 258]) (EAction (ADiacritic 86) [0]%nat (ESeq (ELabel 0 (ECall 199)) (ESub (EChoice (ECall 168) (EChoice (ECall 169) (ECall 170))))))));
  (* toaq.peggy:485, toaq.go:40216 *)
  (164%positive, Rule "ǔ" None
    (EChoice (EClass [468; 467; 365; 364]) (EAction (ADiacritic 86) [0]%nat (ESeq (ELabel 0 (ECall 219)) (ESub (EChoice (ECall 168) (EChoice (ECall 169) (ECall 170))))))));
  (* toaq.peggy:486, toaq.go:40560 *)
  (165%positive, Rule "ǐ" None
    (EChoice (EClass [464; 463; 301; 300]) (EAction (ADiacritic 86) [0]%nat (ESeq (ELabel 0 (ECall 207)) (ESub (EChoice (ECall 168) (EChoice (ECall 169) (ECall 170))))))));
  (* toaq.peggy:487, toaq.go:40904 *)
  (166%positive, Rule "ǒ" None
    (EChoice (EClass [466; 465; 335; 334]) (EAction (ADiacritic 86) [0]%nat (ESeq (ELabel 0 (ECall 213)) (ESub (EChoice (ECall 168) (EChoice (ECall 169) (ECall 170))))))));
  (* toaq.peggy:488, toaq.go:41248 *)
  (167%positive, Rule "ě" None
    (EChoice (EClass [283; 282; 277; 276]) (EAction (ADiacritic 86) [0]%nat (ESeq (ELabel 0 (ECall 203)) (ESub (EChoice (ECall 168) (EChoice (ECall 169) (ECall 170))))))));
  (* toaq.peggy:489, toaq.go:41592 *)
  (168%positive, Rule "caron_combiner" (Some "◌̌")
    (ELit "̌"));
  (* toaq.peggy:490, toaq.go:41690 *)
  (169%positive, Rule "breve_combiner" (Some "◌̆")
    (ELit "̆"));
  (* toaq.peggy:491, toaq.go:41788 *)
  (170%positive, Rule "relative_tone" None
    (EClass [86; 51]));
  (* toaq.peggy:493, toaq.go:41886 *)
  (171%positive, Rule "ả" None
    (EChoice (EClass [7843; 7842]) (EAction (ADiacritic 63) [0]%nat (ESeq (ELabel 0 (ECall 199)) (ESub (EChoice (ECall 176) (ECall 177)))))));
  (* toaq.peggy:494, toaq.go:42199 *)
  (172%positive, Rule "ủ" None
    (EChoice (EClass [7911; 7910]) (EAction (ADiacritic 63) [0]%nat (ESeq (ELabel 0 (ECall 219)) (ESub (EChoice (ECall 176) (ECall 177)))))));
  (* toaq.peggy:495, toaq.go:42512 *)
  (173%positive, Rule "ỉ" None
    (EChoice (EClass [7881; 7880]) (EAction (ADiacritic 63) [0]%nat (ESeq (ELabel 0 (ECall 207)) (ESub (EChoice (ECall 176) (ECall 177)))))));
  (* toaq.peggy:496, toaq.go:42825 *)
  (174%positive, Rule "ỏ" None
    (EChoice (EClass [7887; 7886]) (EAction (ADiacritic 63) [0]%nat (ESeq (ELabel 0 (ECall 213)) (ESub (EChoice (ECall 176) (ECall 177)))))));
  (* toaq.peggy:497, toaq.go:43138 *)
  (175%positive, Rule "ẻ" None
    (EChoice (EClass [7867; 7866]) (EAction (ADiacritic 63) [0]%nat (ESeq (ELabel 0 (ECall 203)) (ESub (EChoice (ECall 176) (ECall 177)))))));
  (* toaq.peggy:498, toaq.go:43451 *)
  (176%positive, Rule "hook_combiner" (Some "◌̉")
    (ELit "̉"));
  (* toaq.peggy:499, toaq.go:43549 *)
  (177%positive, Rule "verb_tone" None
    (EClass [63; 52]));
  (* toaq.peggy:501, toaq.go:43647 *)
  (178%positive, Rule "â" None
    (EChoice (EClass [226; 194]) (EAction (ADiacritic 94) [0]%nat (ESeq (ELabel 0 (ECall 199)) (ESub (EChoice (ECall 183) (ECall 184)))))));
  (* toaq.peggy:502, toaq.go:43960 *)
  (179%positive, Rule "û" None
    (EChoice (EClass [251; 219]) (EAction (ADiacritic 94) [0]%nat (ESeq (ELabel 0 (ECall 219)) (ESub (EChoice (ECall 183) (ECall 184)))))));
  (* toaq.peggy:503, toaq.go:44273 *)
  (180%positive, Rule "î" None
    (EChoice (EClass [238; 206]) (EAction (ADiacritic 94) [0]%nat (ESeq (ELabel 0 (ECall 207)) (ESub (EChoice (ECall 183) (ECall 184)))))));
  (* toaq.peggy:504, toaq.go:44586 *)
  (181%positive, Rule "ô" None
    (EChoice (EClass [244; 212]) (EAction (ADiacritic 94) [0]%nat (ESeq (ELabel 0 (ECall 213)) (ESub (EChoice (ECall 183) (ECall 184)))))));
  (* toaq.peggy:505, toaq.go:44899 *)
  (182%positive, Rule "ê" None
    (EChoice (EClass [234; 202]) (EAction (ADiacritic 94) [0]%nat (ESeq (ELabel 0 (ECall 203)) (ESub (EChoice (ECall 183) (ECall 184)))))));
  (* toaq.peggy:506, toaq.go:45212 *)
  (183%positive, Rule "circumflex_combiner" (Some "◌̂")
    (ELit "̂"));
  (* toaq.peggy:507, toaq.go:45310 *)
  (184%positive, Rule "content_tone" None
    (EClass [53; 94]));
  (* toaq.peggy:509, toaq.go:45408 *)
  (185%positive, Rule "à" None
    (EChoice (EClass [224; 192]) (EAction (ADiacritic 92) [0]%nat (ESeq (ELabel 0 (ECall 199)) (ESub (EChoice (ECall 190) (ECall 191)))))));
  (* toaq.peggy:510, toaq.go:45721 *)
  (186%positive, Rule "ù" None
    (EChoice (EClass [249; 217]) (EAction (ADiacritic 92) [0]%nat (ESeq (ELabel 0 (ECall 219)) (ESub (EChoice (ECall 190) (ECall 191)))))));
  (* toaq.peggy:511, toaq.go:46034 *)
  (187%positive, Rule "ì" None
    (EChoice (EClass [236; 204]) (EAction (ADiacritic 92) [0]%nat (ESeq (ELabel 0 (ECall 207)) (ESub (EChoice (ECall 190) (ECall 191)))))));
  (* toaq.peggy:512, toaq.go:46347 *)
  (188%positive, Rule "ò" None
    (EChoice (EClass [242; 210]) (EAction (ADiacritic 92) [0]%nat (ESeq (ELabel 0 (ECall 213)) (ESub (EChoice (ECall 190) (ECall 191)))))));
  (* toaq.peggy:513, toaq.go:46660 *)
  (189%positive, Rule "è" None
    (EChoice (EClass [232; 200]) (EAction (ADiacritic 92) [0]%nat (ESeq (ELabel 0 (ECall 203)) (ESub (EChoice (ECall 190) (ECall 191)))))));
  (* toaq.peggy:514, toaq.go:46973 *)
  (190%positive, Rule "grave_combiner" (Some "◌̀")
    (ELit "̀"));
  (* toaq.peggy:515, toaq.go:47071 *)
  (191%positive, Rule "preposition_tone" None
    (EClass [92; 54]));
  (* toaq.peggy:517, toaq.go:47169 *)
  (192%positive, Rule "ã" None
    (EChoice (EClass [227; 195]) (EAction (ADiacritic 126) [0]%nat (ESeq (ELabel 0 (ECall 199)) (ESub (EChoice (ECall 197) (ECall 198)))))));
  (* toaq.peggy:518, toaq.go:47482 *)
  (193%positive, Rule "ũ" None
    (EChoice (EClass [361; 360]) (EAction (ADiacritic 126) [0]%nat (ESeq (ELabel 0 (ECall 219)) (ESub (EChoice (ECall 197) (ECall 198)))))));
  (* toaq.peggy:519, toaq.go:47795 *)
  (194%positive, Rule "ĩ" None
    (EChoice (EClass [297; 296]) (EAction (ADiacritic 126) [0]%nat (ESeq (ELabel 0 (ECall 207)) (ESub (EChoice (ECall 197) (ECall 198)))))));
  (* toaq.peggy:520, toaq.go:48108 *)
  (195%positive, Rule "õ" None
    (EChoice (EClass [245; 213]) (EAction (ADiacritic 126) [0]%nat (ESeq (ELabel 0 (ECall 213)) (ESub (EChoice (ECall 197) (ECall 198)))))));
  (* toaq.peggy:521, toaq.go:48421 *)
  (196%positive, Rule "ẽ" None
    (EChoice (EClass [7869; 7868]) (EAction (ADiacritic 126) [0]%nat (ESeq (ELabel 0 (ECall 203)) (ESub (EChoice (ECall 197) (ECall 198)))))));
  (* toaq.peggy:522, toaq.go:48734 *)
  (197%positive, Rule "tilde_combiner" (Some "◌̃")
    (ELit "̃"));
  (* toaq.peggy:523, toaq.go:48832 *)
  (198%positive, Rule "adverb_tone" None
    (EClass [126; 55]));
  (* toaq.peggy:525, toaq.go:48930 *)
  (199%positive, Rule "a" None
    (EClass [97; 65]));
  (* toaq.peggy:526, toaq.go:49028 *)
  (200%positive, Rule "b" None
    (EClass [98; 66]));
  (* toaq.peggy:527, toaq.go:49126 *)
  (201%positive, Rule "c" None
    (EClass [99; 67]));
  (* toaq.peggy:528, toaq.go:49224 *)
  (202%positive, Rule "d" None
    (EClass [100; 68]));
  (* toaq.peggy:529, toaq.go:49322 *)
  (203%positive, Rule "e" None
    (EClass [101; 69]));
  (* toaq.peggy:530, toaq.go:49420 *)
  (204%positive, Rule "f" None
    (EClass [102; 70]));
  (* toaq.peggy:531, toaq.go:49518 *)
  (205%positive, Rule "g" None
    (EClass [103; 71]));
  (* toaq.peggy:532, toaq.go:49616 *)
  (206%positive, Rule "h" None
    (EClass [104; 72]));
  (* toaq.peggy:533, toaq.go:49714 *)
  (207%positive, Rule "i" None
    (EAction ADotless [0]%nat (ELabel 0 (EClass [305; 105; 73]))));
  (* toaq.peggy:534, toaq.go:49856 *)
  (208%positive, Rule "j" None
    (EClass [106; 74]));
  (* toaq.peggy:535, toaq.go:49954 *)
  (209%positive, Rule "k" None
    (EClass [107; 75]));
  (* toaq.peggy:536, toaq.go:50052 *)
  (210%positive, Rule "l" None
    (EClass [108; 76]));
  (* toaq.peggy:537, toaq.go:50150 *)
  (211%positive, Rule "m" None
    (EClass [109; 77]));
  (* toaq.peggy:538, toaq.go:50248 *)
  (212%positive, Rule "n" None
    (EClass [110; 78]));
  (* toaq.peggy:539, toaq.go:50346 *)
  (213%positive, Rule "o" None
    (EClass [111; 79]));
  (* toaq.peggy:540, toaq.go:50444 *)
  (214%positive, Rule "p" None
    (EClass [112; 80]));
  (* toaq.peggy:541, toaq.go:50542 *)
  (215%positive, Rule "q" None
    (EClass [113; 81]));
  (* toaq.peggy:542, toaq.go:50640 *)
  (216%positive, Rule "r" None
    (EClass [114; 82]));
  (* toaq.peggy:543, toaq.go:50738 *)
  (217%positive, Rule "s" None
    (EClass [115; 83]));
  (* toaq.peggy:544, toaq.go:50836 *)
  (218%positive, Rule "t" None
    (EClass [116; 84]));
  (* toaq.peggy:545, toaq.go:50934 *)
  (219%positive, Rule "u" None
    (EClass [117; 85]));
  (* toaq.peggy:546, toaq.go:51032 *)
  (220%positive, Rule "w" None
    (EClass [119; 87]));
  (* toaq.peggy:547, toaq.go:51130 *)
  (221%positive, Rule "y" None
    (EClass [121; 89]));
  (* toaq.peggy:549, toaq.go:51228 *)
  (222%positive, Rule "space" (Some "space")
    (ELabel 0 (EPlus (ESub (EChoice (EClass [9; 10; 13; 32; 46; 44; 58; 33]) (ECall 223))))));
  (* toaq.peggy:550, toaq.go:51599 *)
  (223%positive, Rule "punctuation" None
    (ESeq (ENot (ECall 143)) EPunct));
  (* toaq.peggy:551, toaq.go:51835 *)
  (224%positive, Rule "questions" None
    (EAction ASpace [0]%nat (ELabel 0 (ESub (EPlus (ELit "?"))))));
  (* toaq.peggy:552, toaq.go:52049 *)
  (225%positive, Rule "EOF" (Some "EOF")
    (ENot EAny));
  (* toaq.peggy:275, toaq.go:52198 *)
  (226%positive, Rule "afterthought_cop__relative_clause_1__relative_clause" None
    (EAction ACopLeft [0; 1; 2]%nat (ESeq (ELabel 0 (ECall 43)) (ESeq (ELabel 1 (ECall 72)) (ELabel 2 (ECall 309))))));
  (* toaq.peggy:275, toaq.go:52407 *)
  (227%positive, Rule "afterthought_cop__sentence_1__sentence" None
    (EAction ACopLeft [0; 1; 2]%nat (ESeq (ELabel 0 (ECall 6)) (ESeq (ELabel 1 (ECall 72)) (ELabel 2 (ECall 310))))));
  (* toaq.peggy:280, toaq.go:52616 *)
  (228%positive, Rule "forethought_cop__sentence__sentence" None
    (EAction AForeCoP [0; 1; 2]%nat (ESeq (ELabel 0 (ECall 70)) (ESeq (ELabel 1 (ECall 72)) (ELabel 2 (ECall 311))))));
  (* toaq.peggy:275, toaq.go:52825 *)
  (229%positive, Rule "afterthought_cop__statement_2__statement" None
    (EAction ACopLeft [0; 1; 2]%nat (ESeq (ELabel 0 (ECall 12)) (ESeq (ELabel 1 (ECall 72)) (ELabel 2 (ECall 312))))));
  (* toaq.peggy:280, toaq.go:53034 *)
  (230%positive, Rule "forethought_cop__statement__statement" None
    (EAction AForeCoP [0; 1; 2]%nat (ESeq (ELabel 0 (ECall 70)) (ESeq (ELabel 1 (ECall 72)) (ELabel 2 (ECall 313))))));
  (* toaq.peggy:275, toaq.go:53243 *)
  (231%positive, Rule "afterthought_cop__predicate_2__predicate_1" None
    (EAction ACopLeft [0; 1; 2]%nat (ESeq (ELabel 0 (ECall 19)) (ESeq (ELabel 1 (ECall 72)) (ELabel 2 (ECall 314))))));
  (* toaq.peggy:272, toaq.go:53452 *)
  (232%positive, Rule "forethought_cop_pred__predicate" None
    (EAction (ACoP CPredicate) [0]%nat (ELabel 0 (ECall 315))));
  (* toaq.peggy:293, toaq.go:53577 *)
  (233%positive, Rule "LU_predicate__verb_syllable" None
    (EAction (ALU LPredicate) [0]%nat (ELabel 0 (ECall 316))));
  (* toaq.peggy:301, toaq.go:53702 *)
  (234%positive, Rule "MI_phrase__verb_syllable" None
    (EAction AMiEnd [0; 1; 2]%nat (ESeq (ELabel 0 (ECall 317)) (ESeq (ELabel 1 (ECall 72)) (ELabel 2 (EOpt (ECall 87)))))));
  (* toaq.peggy:313, toaq.go:53947 *)
  (235%positive, Rule "PO_phrase__verb_syllable" None
    (EAction APoEnd [0; 1; 2]%nat (ESeq (ELabel 0 (ECall 318)) (ESeq (ELabel 1 (ECall 72)) (ELabel 2 (EOpt (ECall 87)))))));
  (* toaq.peggy:320, toaq.go:54192 *)
  (236%positive, Rule "MO_phrase__verb_syllable" None
    (EAction AMoEnd [0; 1; 2]%nat (ESeq (ELabel 0 (ECall 319)) (ESeq (ELabel 1 (ECall 72)) (ELabel 2 (ECall 86))))));
  (* toaq.peggy:362, toaq.go:54401 *)
  (237%positive, Rule "predicate_word__verb_syllable" None
    (EAction AWordPredicate [0]%nat (ELabel 0 (ESub (EChoice (ESeq (ECall 129) (EPlus (ECall 126))) (ESeq (ENot (ECall 102)) (ECall 129)))))));
  (* toaq.peggy:84, toaq.go:54771 *)
  (238%positive, Rule "serial__predicate_1" None
    (EAction ASerial [0; 1; 2]%nat (ESeq (ELabel 0 (ECall 18)) (ESeq (ELabel 1 (ECall 72)) (ELabel 2 (ECall 21))))));
  (* toaq.peggy:280, toaq.go:54980 *)
  (239%positive, Rule "forethought_cop__terms_V__terms_V" None
    (EAction AForeCoP [0; 1; 2]%nat (ESeq (ELabel 0 (ECall 70)) (ESeq (ELabel 1 (ECall 72)) (ELabel 2 (ECall 320))))));
  (* toaq.peggy:280, toaq.go:55189 *)
  (240%positive, Rule "forethought_cop__terms_IV__terms_IV" None
    (EAction AForeCoP [0; 1; 2]%nat (ESeq (ELabel 0 (ECall 70)) (ESeq (ELabel 1 (ECall 72)) (ELabel 2 (ECall 321))))));
  (* toaq.peggy:280, toaq.go:55398 *)
  (241%positive, Rule "forethought_cop__terms_III__terms_III" None
    (EAction AForeCoP [0; 1; 2]%nat (ESeq (ELabel 0 (ECall 70)) (ESeq (ELabel 1 (ECall 72)) (ELabel 2 (ECall 322))))));
  (* toaq.peggy:280, toaq.go:55607 *)
  (242%positive, Rule "forethought_cop__terms_II__terms_II" None
    (EAction AForeCoP [0; 1; 2]%nat (ESeq (ELabel 0 (ECall 70)) (ESeq (ELabel 1 (ECall 72)) (ELabel 2 (ECall 323))))));
  (* toaq.peggy:275, toaq.go:55816 *)
  (243%positive, Rule "afterthought_cop__arg_1__argument" None
    (EAction ACopLeft [0; 1; 2]%nat (ESeq (ELabel 0 (ECall 33)) (ESeq (ELabel 1 (ECall 72)) (ELabel 2 (ECall 324))))));
  (* toaq.peggy:280, toaq.go:56025 *)
  (244%positive, Rule "forethought_cop__argument__argument" None
    (EAction AForeCoP [0; 1; 2]%nat (ESeq (ELabel 0 (ECall 70)) (ESeq (ELabel 1 (ECall 72)) (ELabel 2 (ECall 325))))));
  (* toaq.peggy:84, toaq.go:56234 *)
  (245%positive, Rule "serial__arg_6" None
    (EAction ASerial [0; 1; 2]%nat (ESeq (ELabel 0 (ECall 40)) (ESeq (ELabel 1 (ECall 72)) (ELabel 2 (ECall 21))))));
  (* toaq.peggy:270, toaq.go:56443 *)
  (246%positive, Rule "afterthought_cop_pred__arg_7" None
    (EAction (ACoP CPredicate) [0]%nat (ELabel 0 (ECall 326))));
  (* toaq.peggy:272, toaq.go:56568 *)
  (247%positive, Rule "forethought_cop_pred__arg_5" None
    (EAction (ACoP CPredicate) [0]%nat (ELabel 0 (ECall 327))));
  (* toaq.peggy:293, toaq.go:56693 *)
  (248%positive, Rule "LU_predicate__arg_syllable" None
    (EAction (ALU LPredicate) [0]%nat (ELabel 0 (ECall 328))));
  (* toaq.peggy:301, toaq.go:56818 *)
  (249%positive, Rule "MI_phrase__arg_syllable" None
    (EAction AMiEnd [0; 1; 2]%nat (ESeq (ELabel 0 (ECall 329)) (ESeq (ELabel 1 (ECall 72)) (ELabel 2 (EOpt (ECall 87)))))));
  (* toaq.peggy:313, toaq.go:57063 *)
  (250%positive, Rule "PO_phrase__arg_syllable" None
    (EAction APoEnd [0; 1; 2]%nat (ESeq (ELabel 0 (ECall 330)) (ESeq (ELabel 1 (ECall 72)) (ELabel 2 (EOpt (ECall 87)))))));
  (* toaq.peggy:320, toaq.go:57308 *)
  (251%positive, Rule "MO_phrase__arg_syllable" None
    (EAction AMoEnd [0; 1; 2]%nat (ESeq (ELabel 0 (ECall 331)) (ESeq (ELabel 1 (ECall 72)) (ELabel 2 (ECall 86))))));
  (* toaq.peggy:362, toaq.go:57517 *)
  (252%positive, Rule "predicate_word__arg_syllable" None
    (EAction AWordPredicate [0]%nat (ELabel 0 (ESub (EChoice (ESeq (ECall 127) (EPlus (ECall 126))) (ESeq (ENot (ECall 102)) (ECall 127)))))));
  (* toaq.peggy:295, toaq.go:57887 *)
  (253%positive, Rule "LU_phrase__relative_syllable" None
    (EAction ALUPhrase [0; 1; 2]%nat (ESeq (ELabel 0 (ECall 332)) (ESeq (ELabel 1 (ECall 72)) (ELabel 2 (ECall 10))))));
  (* toaq.peggy:280, toaq.go:58096 *)
  (254%positive, Rule "forethought_cop__relative_clause__relative_clause" None
    (EAction AForeCoP [0; 1; 2]%nat (ESeq (ELabel 0 (ECall 70)) (ESeq (ELabel 1 (ECall 72)) (ELabel 2 (ECall 333))))));
  (* toaq.peggy:275, toaq.go:58305 *)
  (255%positive, Rule "afterthought_cop__relative_clause_3__statement" None
    (EAction ACopLeft [0; 1; 2]%nat (ESeq (ELabel 0 (ECall 45)) (ESeq (ELabel 1 (ECall 72)) (ELabel 2 (ECall 312))))));
  (* toaq.peggy:84, toaq.go:58514 *)
  (256%positive, Rule "serial__relative_predicate_1" None
    (EAction ASerial [0; 1; 2]%nat (ESeq (ELabel 0 (ECall 48)) (ESeq (ELabel 1 (ECall 72)) (ELabel 2 (ECall 21))))));
  (* toaq.peggy:270, toaq.go:58723 *)
  (257%positive, Rule "afterthought_cop_pred__relative_predicate_2" None
    (EAction (ACoP CPredicate) [0]%nat (ELabel 0 (ECall 334))));
  (* toaq.peggy:272, toaq.go:58848 *)
  (258%positive, Rule "forethought_cop_pred__relative_predicate" None
    (EAction (ACoP CPredicate) [0]%nat (ELabel 0 (ECall 335))));
  (* toaq.peggy:301, toaq.go:58973 *)
  (259%positive, Rule "MI_phrase__relative_syllable" None
    (EAction AMiEnd [0; 1; 2]%nat (ESeq (ELabel 0 (ECall 336)) (ESeq (ELabel 1 (ECall 72)) (ELabel 2 (EOpt (ECall 87)))))));
  (* toaq.peggy:313, toaq.go:59218 *)
  (260%positive, Rule "PO_phrase__relative_syllable" None
    (EAction APoEnd [0; 1; 2]%nat (ESeq (ELabel 0 (ECall 337)) (ESeq (ELabel 1 (ECall 72)) (ELabel 2 (EOpt (ECall 87)))))));
  (* toaq.peggy:320, toaq.go:59463 *)
  (261%positive, Rule "MO_phrase__relative_syllable" None
    (EAction AMoEnd [0; 1; 2]%nat (ESeq (ELabel 0 (ECall 338)) (ESeq (ELabel 1 (ECall 72)) (ELabel 2 (ECall 86))))));
  (* toaq.peggy:362, toaq.go:59672 *)
  (262%positive, Rule "predicate_word__relative_syllable" None
    (EAction AWordPredicate [0]%nat (ELabel 0 (ESub (EChoice (ESeq (ECall 128) (EPlus (ECall 126))) (ESeq (ENot (ECall 102)) (ECall 128)))))));
  (* toaq.peggy:275, toaq.go:60042 *)
  (263%positive, Rule "afterthought_cop__adverb_1__adverb" None
    (EAction ACopLeft [0; 1; 2]%nat (ESeq (ELabel 0 (ECall 51)) (ESeq (ELabel 1 (ECall 72)) (ELabel 2 (ECall 339))))));
  (* toaq.peggy:280, toaq.go:60251 *)
  (264%positive, Rule "forethought_cop__adverb__adverb" None
    (EAction AForeCoP [0; 1; 2]%nat (ESeq (ELabel 0 (ECall 70)) (ESeq (ELabel 1 (ECall 72)) (ELabel 2 (ECall 340))))));
  (* toaq.peggy:84, toaq.go:60460 *)
  (265%positive, Rule "serial__adverb_3" None
    (EAction ASerial [0; 1; 2]%nat (ESeq (ELabel 0 (ECall 53)) (ESeq (ELabel 1 (ECall 72)) (ELabel 2 (ECall 21))))));
  (* toaq.peggy:270, toaq.go:60669 *)
  (266%positive, Rule "afterthought_cop_pred__adverb_4" None
    (EAction (ACoP CPredicate) [0]%nat (ELabel 0 (ECall 341))));
  (* toaq.peggy:272, toaq.go:60794 *)
  (267%positive, Rule "forethought_cop_pred__adverb_3" None
    (EAction (ACoP CPredicate) [0]%nat (ELabel 0 (ECall 342))));
  (* toaq.peggy:293, toaq.go:60919 *)
  (268%positive, Rule "LU_predicate__adverb_syllable" None
    (EAction (ALU LPredicate) [0]%nat (ELabel 0 (ECall 343))));
  (* toaq.peggy:301, toaq.go:61044 *)
  (269%positive, Rule "MI_phrase__adverb_syllable" None
    (EAction AMiEnd [0; 1; 2]%nat (ESeq (ELabel 0 (ECall 344)) (ESeq (ELabel 1 (ECall 72)) (ELabel 2 (EOpt (ECall 87)))))));
  (* toaq.peggy:313, toaq.go:61289 *)
  (270%positive, Rule "PO_phrase__adverb_syllable" None
    (EAction APoEnd [0; 1; 2]%nat (ESeq (ELabel 0 (ECall 345)) (ESeq (ELabel 1 (ECall 72)) (ELabel 2 (EOpt (ECall 87)))))));
  (* toaq.peggy:320, toaq.go:61534 *)
  (271%positive, Rule "MO_phrase__adverb_syllable" None
    (EAction AMoEnd [0; 1; 2]%nat (ESeq (ELabel 0 (ECall 346)) (ESeq (ELabel 1 (ECall 72)) (ELabel 2 (ECall 86))))));
  (* toaq.peggy:362, toaq.go:61743 *)
  (272%positive, Rule "predicate_word__adverb_syllable" None
    (EAction AWordPredicate [0]%nat (ELabel 0 (ESub (EChoice (ESeq (ECall 132) (EPlus (ECall 126))) (ESeq (ENot (ECall 102)) (ECall 132)))))));
  (* toaq.peggy:275, toaq.go:62113 *)
  (273%positive, Rule "afterthought_cop__prepositional_phrase_1__prepositional_phrase" None
    (EAction ACopLeft [0; 1; 2]%nat (ESeq (ELabel 0 (ECall 56)) (ESeq (ELabel 1 (ECall 72)) (ELabel 2 (ECall 347))))));
  (* toaq.peggy:280, toaq.go:62322 *)
  (274%positive, Rule "forethought_cop__prepositional_phrase__prepositional_phrase" None
    (EAction AForeCoP [0; 1; 2]%nat (ESeq (ELabel 0 (ECall 70)) (ESeq (ELabel 1 (ECall 72)) (ELabel 2 (ECall 348))))));
  (* toaq.peggy:275, toaq.go:62531 *)
  (275%positive, Rule "afterthought_cop__preposition_1__preposition" None
    (EAction ACopLeft [0; 1; 2]%nat (ESeq (ELabel 0 (ECall 59)) (ESeq (ELabel 1 (ECall 72)) (ELabel 2 (ECall 349))))));
  (* toaq.peggy:280, toaq.go:62740 *)
  (276%positive, Rule "forethought_cop__preposition__preposition" None
    (EAction AForeCoP [0; 1; 2]%nat (ESeq (ELabel 0 (ECall 70)) (ESeq (ELabel 1 (ECall 72)) (ELabel 2 (ECall 350))))));
  (* toaq.peggy:84, toaq.go:62949 *)
  (277%positive, Rule "serial__preposition_3" None
    (EAction ASerial [0; 1; 2]%nat (ESeq (ELabel 0 (ECall 61)) (ESeq (ELabel 1 (ECall 72)) (ELabel 2 (ECall 21))))));
  (* toaq.peggy:270, toaq.go:63158 *)
  (278%positive, Rule "afterthought_cop_pred__preposition_4" None
    (EAction (ACoP CPredicate) [0]%nat (ELabel 0 (ECall 351))));
  (* toaq.peggy:272, toaq.go:63283 *)
  (279%positive, Rule "forethought_cop_pred__preposition" None
    (EAction (ACoP CPredicate) [0]%nat (ELabel 0 (ECall 352))));
  (* toaq.peggy:293, toaq.go:63408 *)
  (280%positive, Rule "LU_predicate__preposition_syllable" None
    (EAction (ALU LPredicate) [0]%nat (ELabel 0 (ECall 353))));
  (* toaq.peggy:301, toaq.go:63533 *)
  (281%positive, Rule "MI_phrase__preposition_syllable" None
    (EAction AMiEnd [0; 1; 2]%nat (ESeq (ELabel 0 (ECall 354)) (ESeq (ELabel 1 (ECall 72)) (ELabel 2 (EOpt (ECall 87)))))));
  (* toaq.peggy:313, toaq.go:63778 *)
  (282%positive, Rule "PO_phrase__preposition_syllable" None
    (EAction APoEnd [0; 1; 2]%nat (ESeq (ELabel 0 (ECall 355)) (ESeq (ELabel 1 (ECall 72)) (ELabel 2 (EOpt (ECall 87)))))));
  (* toaq.peggy:320, toaq.go:64023 *)
  (283%positive, Rule "MO_phrase__preposition_syllable" None
    (EAction AMoEnd [0; 1; 2]%nat (ESeq (ELabel 0 (ECall 356)) (ESeq (ELabel 1 (ECall 72)) (ELabel 2 (ECall 86))))));
  (* toaq.peggy:362, toaq.go:64232 *)
  (284%positive, Rule "predicate_word__preposition_syllable" None
    (EAction AWordPredicate [0]%nat (ELabel 0 (ESub (EChoice (ESeq (ECall 131) (EPlus (ECall 126))) (ESeq (ENot (ECall 102)) (ECall 131)))))));
  (* toaq.peggy:275, toaq.go:64602 *)
  (285%positive, Rule "afterthought_cop__content_clause_1__statement" None
    (EAction ACopLeft [0; 1; 2]%nat (ESeq (ELabel 0 (ECall 64)) (ESeq (ELabel 1 (ECall 72)) (ELabel 2 (ECall 312))))));
  (* toaq.peggy:295, toaq.go:64811 *)
  (286%positive, Rule "LU_phrase__content_syllable" None
    (EAction ALUPhrase [0; 1; 2]%nat (ESeq (ELabel 0 (ECall 357)) (ESeq (ELabel 1 (ECall 72)) (ELabel 2 (ECall 10))))));
  (* toaq.peggy:84, toaq.go:65020 *)
  (287%positive, Rule "serial__content_predicate_1" None
    (EAction ASerial [0; 1; 2]%nat (ESeq (ELabel 0 (ECall 68)) (ESeq (ELabel 1 (ECall 72)) (ELabel 2 (ECall 21))))));
  (* toaq.peggy:270, toaq.go:65229 *)
  (288%positive, Rule "afterthought_cop_pred__content_predicate_2" None
    (EAction (ACoP CPredicate) [0]%nat (ELabel 0 (ECall 358))));
  (* toaq.peggy:272, toaq.go:65354 *)
  (289%positive, Rule "forethought_cop_pred__content_predicate_2" None
    (EAction (ACoP CPredicate) [0]%nat (ELabel 0 (ECall 359))));
  (* toaq.peggy:301, toaq.go:65479 *)
  (290%positive, Rule "MI_phrase__content_syllable" None
    (EAction AMiEnd [0; 1; 2]%nat (ESeq (ELabel 0 (ECall 360)) (ESeq (ELabel 1 (ECall 72)) (ELabel 2 (EOpt (ECall 87)))))));
  (* toaq.peggy:313, toaq.go:65724 *)
  (291%positive, Rule "PO_phrase__content_syllable" None
    (EAction APoEnd [0; 1; 2]%nat (ESeq (ELabel 0 (ECall 361)) (ESeq (ELabel 1 (ECall 72)) (ELabel 2 (EOpt (ECall 87)))))));
  (* toaq.peggy:320, toaq.go:65969 *)
  (292%positive, Rule "MO_phrase__content_syllable" None
    (EAction AMoEnd [0; 1; 2]%nat (ESeq (ELabel 0 (ECall 362)) (ESeq (ELabel 1 (ECall 72)) (ELabel 2 (ECall 86))))));
  (* toaq.peggy:362, toaq.go:66178 *)
  (293%positive, Rule "predicate_word__content_syllable" None
    (EAction AWordPredicate [0]%nat (ELabel 0 (ESub (EChoice (ESeq (ECall 130) (EPlus (ECall 126))) (ESeq (ENot (ECall 102)) (ECall 130)))))));
  (* toaq.peggy:427, toaq.go:66548 *)
  (294%positive, Rule "syllable__compound_desinence__compound_tone" None
    (ESeq (ECall 134) (ESeq (ESub (EChoice (ECall 136) (EAction AAddTone [0; 1]%nat (ESeq (ELabel 0 (ECall 135)) (ELabel 1 (ECall 155)))))) (EAnd (ECall 133)))));
  (* toaq.peggy:427, toaq.go:66902 *)
  (295%positive, Rule "syllable__arg_desinence__arg_tone" None
    (ESeq (ECall 134) (ESeq (ESub (EChoice (ECall 137) (EAction AAddTone [0; 1]%nat (ESeq (ELabel 0 (ECall 135)) (ELabel 1 (ECall 162)))))) (EAnd (ECall 133)))));
  (* toaq.peggy:427, toaq.go:67256 *)
  (296%positive, Rule "syllable__relative_desinence__relative_tone" None
    (ESeq (ECall 134) (ESeq (ESub (EChoice (ECall 138) (EAction AAddTone [0; 1]%nat (ESeq (ELabel 0 (ECall 135)) (ELabel 1 (ECall 170)))))) (EAnd (ECall 133)))));
  (* toaq.peggy:427, toaq.go:67610 *)
  (297%positive, Rule "syllable__verb_desinence__verb_tone" None
    (ESeq (ECall 134) (ESeq (ESub (EChoice (ECall 139) (EAction AAddTone [0; 1]%nat (ESeq (ELabel 0 (ECall 135)) (ELabel 1 (ECall 177)))))) (EAnd (ECall 133)))));
  (* toaq.peggy:427, toaq.go:67964 *)
  (298%positive, Rule "syllable__content_desinence__content_tone" None
    (ESeq (ECall 134) (ESeq (ESub (EChoice (ECall 140) (EAction AAddTone [0; 1]%nat (ESeq (ELabel 0 (ECall 135)) (ELabel 1 (ECall 184)))))) (EAnd (ECall 133)))));
  (* toaq.peggy:427, toaq.go:68318 *)
  (299%positive, Rule "syllable__preposition_desinence__preposition_tone" None
    (ESeq (ECall 134) (ESeq (ESub (EChoice (ECall 141) (EAction AAddTone [0; 1]%nat (ESeq (ELabel 0 (ECall 135)) (ELabel 1 (ECall 191)))))) (EAnd (ECall 133)))));
  (* toaq.peggy:427, toaq.go:68672 *)
  (300%positive, Rule "syllable__adverb_desinence__adverb_tone" None
    (ESeq (ECall 134) (ESeq (ESub (EChoice (ECall 142) (EAction AAddTone [0; 1]%nat (ESeq (ELabel 0 (ECall 135)) (ELabel 1 (ECall 198)))))) (EAnd (ECall 133)))));
  (* toaq.peggy:443, toaq.go:69026 *)
  (301%positive, Rule "desinence__a__u__i__o__e" None
    (EChoice (ESeq (ECall 199) (ECall 215)) (EChoice (ESeq (ECall 199) (ECall 207)) (EChoice (ESeq (ECall 199) (ECall 213)) (EChoice (ECall 199) (EChoice (ESeq (ECall 219) (ECall 215)) (EChoice (ESeq (ECall 219) (ESeq (ECall 199) (ECall 215))) (EChoice (ESeq (ECall 219) (ESeq (ECall 199) (ECall 207))) (EChoice (ESeq (ECall 219) (ESeq (ECall 199) (ECall 213))) (EChoice (ESeq (ECall 219) (ECall 199)) (EChoice (ESeq (ECall 219) (ECall 207)) (EChoice (ESeq (ECall 219) (ESeq (ECall 213) (ECall 215))) (EChoice (ESeq (ECall 219) (ESeq (ECall 213) (ECall 207))) (EChoice (ESeq (ECall 219) (ECall 213)) (EChoice (ESeq (ECall 219) (ESeq (ECall 203) (ECall 215))) (EChoice (ESeq (ECall 219) (ECall 203)) (EChoice (ECall 219) (EChoice (ESeq (ECall 207) (ECall 215)) (EChoice (ESeq (ECall 207) (ESeq (ECall 199) (ECall 215))) (EChoice (ESeq (ECall 207) (ESeq (ECall 199) (ECall 207))) (EChoice (ESeq (ECall 207) (ESeq (ECall 199) (ECall 213))) (EChoice (ESeq (ECall 207) (ECall 199)) (EChoice (ESeq (ECall 207) (ESeq (ECall 219) (ECall 215))) (EChoice (ESeq (ECall 207) (ECall 219)) (EChoice (ESeq (ECall 207) (ESeq (ECall 213) (ECall 207))) (EChoice (ESeq (ECall 207) (ESeq (ECall 213) (ECall 215))) (EChoice (ESeq (ECall 207) (ECall 213)) (EChoice (ESeq (ECall 207) (ESeq (ECall 203) (ECall 215))) (EChoice (ESeq (ECall 207) (ECall 203)) (EChoice (ECall 207) (EChoice (ESeq (ECall 213) (ECall 215)) (EChoice (ESeq (ECall 213) (ESeq (ECall 199) (ECall 215))) (EChoice (ESeq (ECall 213) (ESeq (ECall 199) (ECall 207))) (EChoice (ESeq (ECall 213) (ESeq (ECall 199) (ECall 213))) (EChoice (ESeq (ECall 213) (ECall 199)) (EChoice (ESeq (ECall 213) (ECall 207)) (EChoice (ESeq (ECall 213) (ESeq (ECall 203) (ECall 215))) (EChoice (ESeq (ECall 213) (ECall 203)) (EChoice (ECall 213) (EChoice (ESeq (ECall 203) (ECall 215)) (EChoice (ESeq (ECall 203) (ESeq (ECall 199) (ECall 215))) (EChoice (ESeq (ECall 203) (ESeq (ECall 199) (ECall 207))) (EChoice (ESeq (ECall 203) (ESeq (ECall 199) (ECall 213))) (EChoice (ESeq (ECall 203) (ECall 199)) (EChoice (ESeq (ECall 203) (ECall 207)) (EChoice (ESeq (ECall 203) (ESeq (ECall 213) (ECall 215))) (EChoice (ESeq (ECall 203) (ECall 213)) (EChoice (ESeq (ECall 203) (ECall 219)) (ECall 203)))))))))))))))))))))))))))))))))))))))))))))))));
  (* toaq.peggy:443, toaq.go:72325 *)
  (302%positive, Rule "desinence__ā__ū__ī__ō__ē" None
    (EChoice (ESeq (ECall 149) (ECall 215)) (EChoice (ESeq (ECall 149) (ECall 207)) (EChoice (ESeq (ECall 149) (ECall 213)) (EChoice (ECall 149) (EChoice (ESeq (ECall 150) (ECall 215)) (EChoice (ESeq (ECall 150) (ESeq (ECall 199) (ECall 215))) (EChoice (ESeq (ECall 150) (ESeq (ECall 199) (ECall 207))) (EChoice (ESeq (ECall 150) (ESeq (ECall 199) (ECall 213))) (EChoice (ESeq (ECall 150) (ECall 199)) (EChoice (ESeq (ECall 150) (ECall 207)) (EChoice (ESeq (ECall 150) (ESeq (ECall 213) (ECall 215))) (EChoice (ESeq (ECall 150) (ESeq (ECall 213) (ECall 207))) (EChoice (ESeq (ECall 150) (ECall 213)) (EChoice (ESeq (ECall 150) (ESeq (ECall 203) (ECall 215))) (EChoice (ESeq (ECall 150) (ECall 203)) (EChoice (ECall 150) (EChoice (ESeq (ECall 151) (ECall 215)) (EChoice (ESeq (ECall 151) (ESeq (ECall 199) (ECall 215))) (EChoice (ESeq (ECall 151) (ESeq (ECall 199) (ECall 207))) (EChoice (ESeq (ECall 151) (ESeq (ECall 199) (ECall 213))) (EChoice (ESeq (ECall 151) (ECall 199)) (EChoice (ESeq (ECall 151) (ESeq (ECall 219) (ECall 215))) (EChoice (ESeq (ECall 151) (ECall 219)) (EChoice (ESeq (ECall 151) (ESeq (ECall 213) (ECall 207))) (EChoice (ESeq (ECall 151) (ESeq (ECall 213) (ECall 215))) (EChoice (ESeq (ECall 151) (ECall 213)) (EChoice (ESeq (ECall 151) (ESeq (ECall 203) (ECall 215))) (EChoice (ESeq (ECall 151) (ECall 203)) (EChoice (ECall 151) (EChoice (ESeq (ECall 152) (ECall 215)) (EChoice (ESeq (ECall 152) (ESeq (ECall 199) (ECall 215))) (EChoice (ESeq (ECall 152) (ESeq (ECall 199) (ECall 207))) (EChoice (ESeq (ECall 152) (ESeq (ECall 199) (ECall 213))) (EChoice (ESeq (ECall 152) (ECall 199)) (EChoice (ESeq (ECall 152) (ECall 207)) (EChoice (ESeq (ECall 152) (ESeq (ECall 203) (ECall 215))) (EChoice (ESeq (ECall 152) (ECall 203)) (EChoice (ECall 152) (EChoice (ESeq (ECall 153) (ECall 215)) (EChoice (ESeq (ECall 153) (ESeq (ECall 199) (ECall 215))) (EChoice (ESeq (ECall 153) (ESeq (ECall 199) (ECall 207))) (EChoice (ESeq (ECall 153) (ESeq (ECall 199) (ECall 213))) (EChoice (ESeq (ECall 153) (ECall 199)) (EChoice (ESeq (ECall 153) (ECall 207)) (EChoice (ESeq (ECall 153) (ESeq (ECall 213) (ECall 215))) (EChoice (ESeq (ECall 153) (ECall 213)) (EChoice (ESeq (ECall 153) (ECall 219)) (ECall 153)))))))))))))))))))))))))))))))))))))))))))))))));
  (* toaq.peggy:443, toaq.go:75624 *)
  (303%positive, Rule "desinence__á__ú__í__ó__é" None
    (EChoice (ESeq (ECall 156) (ECall 215)) (EChoice (ESeq (ECall 156) (ECall 207)) (EChoice (ESeq (ECall 156) (ECall 213)) (EChoice (ECall 156) (EChoice (ESeq (ECall 157) (ECall 215)) (EChoice (ESeq (ECall 157) (ESeq (ECall 199) (ECall 215))) (EChoice (ESeq (ECall 157) (ESeq (ECall 199) (ECall 207))) (EChoice (ESeq (ECall 157) (ESeq (ECall 199) (ECall 213))) (EChoice (ESeq (ECall 157) (ECall 199)) (EChoice (ESeq (ECall 157) (ECall 207)) (EChoice (ESeq (ECall 157) (ESeq (ECall 213) (ECall 215))) (EChoice (ESeq (ECall 157) (ESeq (ECall 213) (ECall 207))) (EChoice (ESeq (ECall 157) (ECall 213)) (EChoice (ESeq (ECall 157) (ESeq (ECall 203) (ECall 215))) (EChoice (ESeq (ECall 157) (ECall 203)) (EChoice (ECall 157) (EChoice (ESeq (ECall 158) (ECall 215)) (EChoice (ESeq (ECall 158) (ESeq (ECall 199) (ECall 215))) (EChoice (ESeq (ECall 158) (ESeq (ECall 199) (ECall 207))) (EChoice (ESeq (ECall 158) (ESeq (ECall 199) (ECall 213))) (EChoice (ESeq (ECall 158) (ECall 199)) (EChoice (ESeq (ECall 158) (ESeq (ECall 219) (ECall 215))) (EChoice (ESeq (ECall 158) (ECall 219)) (EChoice (ESeq (ECall 158) (ESeq (ECall 213) (ECall 207))) (EChoice (ESeq (ECall 158) (ESeq (ECall 213) (ECall 215))) (EChoice (ESeq (ECall 158) (ECall 213)) (EChoice (ESeq (ECall 158) (ESeq (ECall 203) (ECall 215))) (EChoice (ESeq (ECall 158) (ECall 203)) (EChoice (ECall 158) (EChoice (ESeq (ECall 159) (ECall 215)) (EChoice (ESeq (ECall 159) (ESeq (ECall 199) (ECall 215))) (EChoice (ESeq (ECall 159) (ESeq (ECall 199) (ECall 207))) (EChoice (ESeq (ECall 159) (ESeq (ECall 199) (ECall 213))) (EChoice (ESeq (ECall 159) (ECall 199)) (EChoice (ESeq (ECall 159) (ECall 207)) (EChoice (ESeq (ECall 159) (ESeq (ECall 203) (ECall 215))) (EChoice (ESeq (ECall 159) (ECall 203)) (EChoice (ECall 159) (EChoice (ESeq (ECall 160) (ECall 215)) (EChoice (ESeq (ECall 160) (ESeq (ECall 199) (ECall 215))) (EChoice (ESeq (ECall 160) (ESeq (ECall 199) (ECall 207))) (EChoice (ESeq (ECall 160) (ESeq (ECall 199) (ECall 213))) (EChoice (ESeq (ECall 160) (ECall 199)) (EChoice (ESeq (ECall 160) (ECall 207)) (EChoice (ESeq (ECall 160) (ESeq (ECall 213) (ECall 215))) (EChoice (ESeq (ECall 160) (ECall 213)) (EChoice (ESeq (ECall 160) (ECall 219)) (ECall 160)))))))))))))))))))))))))))))))))))))))))))))))));
  (* toaq.peggy:443, toaq.go:78923 *)
  (304%positive, Rule "desinence__ǎ__ǔ__ǐ__ǒ__ě" None
    (EChoice (ESeq (ECall 163) (ECall 215)) (EChoice (ESeq (ECall 163) (ECall 207)) (EChoice (ESeq (ECall 163) (ECall 213)) (EChoice (ECall 163) (EChoice (ESeq (ECall 164) (ECall 215)) (EChoice (ESeq (ECall 164) (ESeq (ECall 199) (ECall 215))) (EChoice (ESeq (ECall 164) (ESeq (ECall 199) (ECall 207))) (EChoice (ESeq (ECall 164) (ESeq (ECall 199) (ECall 213))) (EChoice (ESeq (ECall 164) (ECall 199)) (EChoice (ESeq (ECall 164) (ECall 207)) (EChoice (ESeq (ECall 164) (ESeq (ECall 213) (ECall 215))) (EChoice (ESeq (ECall 164) (ESeq (ECall 213) (ECall 207))) (EChoice (ESeq (ECall 164) (ECall 213)) (EChoice (ESeq (ECall 164) (ESeq (ECall 203) (ECall 215))) (EChoice (ESeq (ECall 164) (ECall 203)) (EChoice (ECall 164) (EChoice (ESeq (ECall 165) (ECall 215)) (EChoice (ESeq (ECall 165) (ESeq (ECall 199) (ECall 215))) (EChoice (ESeq (ECall 165) (ESeq (ECall 199) (ECall 207))) (EChoice (ESeq (ECall 165) (ESeq (ECall 199) (ECall 213))) (EChoice (ESeq (ECall 165) (ECall 199)) (EChoice (ESeq (ECall 165) (ESeq (ECall 219) (ECall 215))) (EChoice (ESeq (ECall 165) (ECall 219)) (EChoice (ESeq (ECall 165) (ESeq (ECall 213) (ECall 207))) (EChoice (ESeq (ECall 165) (ESeq (ECall 213) (ECall 215))) (EChoice (ESeq (ECall 165) (ECall 213)) (EChoice (ESeq (ECall 165) (ESeq (ECall 203) (ECall 215))) (EChoice (ESeq (ECall 165) (ECall 203)) (EChoice (ECall 165) (EChoice (ESeq (ECall 166) (ECall 215)) (EChoice (ESeq (ECall 166) (ESeq (ECall 199) (ECall 215))) (EChoice (ESeq (ECall 166) (ESeq (ECall 199) (ECall 207))) (EChoice (ESeq (ECall 166) (ESeq (ECall 199) (ECall 213))) (EChoice (ESeq (ECall 166) (ECall 199)) (EChoice (ESeq (ECall 166) (ECall 207)) (EChoice (ESeq (ECall 166) (ESeq (ECall 203) (ECall 215))) (EChoice (ESeq (ECall 166) (ECall 203)) (EChoice (ECall 166) (EChoice (ESeq (ECall 167) (ECall 215)) (EChoice (ESeq (ECall 167) (ESeq (ECall 199) (ECall 215))) (EChoice (ESeq (ECall 167) (ESeq (ECall 199) (ECall 207))) (EChoice (ESeq (ECall 167) (ESeq (ECall 199) (ECall 213))) (EChoice (ESeq (ECall 167) (ECall 199)) (EChoice (ESeq (ECall 167) (ECall 207)) (EChoice (ESeq (ECall 167) (ESeq (ECall 213) (ECall 215))) (EChoice (ESeq (ECall 167) (ECall 213)) (EChoice (ESeq (ECall 167) (ECall 219)) (ECall 167)))))))))))))))))))))))))))))))))))))))))))))))));
  (* toaq.peggy:443, toaq.go:82222 *)
  (305%positive, Rule "desinence__ả__ủ__ỉ__ỏ__ẻ" None
    (EChoice (ESeq (ECall 171) (ECall 215)) (EChoice (ESeq (ECall 171) (ECall 207)) (EChoice (ESeq (ECall 171) (ECall 213)) (EChoice (ECall 171) (EChoice (ESeq (ECall 172) (ECall 215)) (EChoice (ESeq (ECall 172) (ESeq (ECall 199) (ECall 215))) (EChoice (ESeq (ECall 172) (ESeq (ECall 199) (ECall 207))) (EChoice (ESeq (ECall 172) (ESeq (ECall 199) (ECall 213))) (EChoice (ESeq (ECall 172) (ECall 199)) (EChoice (ESeq (ECall 172) (ECall 207)) (EChoice (ESeq (ECall 172) (ESeq (ECall 213) (ECall 215))) (EChoice (ESeq (ECall 172) (ESeq (ECall 213) (ECall 207))) (EChoice (ESeq (ECall 172) (ECall 213)) (EChoice (ESeq (ECall 172) (ESeq (ECall 203) (ECall 215))) (EChoice (ESeq (ECall 172) (ECall 203)) (EChoice (ECall 172) (EChoice (ESeq (ECall 173) (ECall 215)) (EChoice (ESeq (ECall 173) (ESeq (ECall 199) (ECall 215))) (EChoice (ESeq (ECall 173) (ESeq (ECall 199) (ECall 207))) (EChoice (ESeq (ECall 173) (ESeq (ECall 199) (ECall 213))) (EChoice (ESeq (ECall 173) (ECall 199)) (EChoice (ESeq (ECall 173) (ESeq (ECall 219) (ECall 215))) (EChoice (ESeq (ECall 173) (ECall 219)) (EChoice (ESeq (ECall 173) (ESeq (ECall 213) (ECall 207))) (EChoice (ESeq (ECall 173) (ESeq (ECall 213) (ECall 215))) (EChoice (ESeq (ECall 173) (ECall 213)) (EChoice (ESeq (ECall 173) (ESeq (ECall 203) (ECall 215))) (EChoice (ESeq (ECall 173) (ECall 203)) (EChoice (ECall 173) (EChoice (ESeq (ECall 174) (ECall 215)) (EChoice (ESeq (ECall 174) (ESeq (ECall 199) (ECall 215))) (EChoice (ESeq (ECall 174) (ESeq (ECall 199) (ECall 207))) (EChoice (ESeq (ECall 174) (ESeq (ECall 199) (ECall 213))) (EChoice (ESeq (ECall 174) (ECall 199)) (EChoice (ESeq (ECall 174) (ECall 207)) (EChoice (ESeq (ECall 174) (ESeq (ECall 203) (ECall 215))) (EChoice (ESeq (ECall 174) (ECall 203)) (EChoice (ECall 174) (EChoice (ESeq (ECall 175) (ECall 215)) (EChoice (ESeq (ECall 175) (ESeq (ECall 199) (ECall 215))) (EChoice (ESeq (ECall 175) (ESeq (ECall 199) (ECall 207))) (EChoice (ESeq (ECall 175) (ESeq (ECall 199) (ECall 213))) (EChoice (ESeq (ECall 175) (ECall 199)) (EChoice (ESeq (ECall 175) (ECall 207)) (EChoice (ESeq (ECall 175) (ESeq (ECall 213) (ECall 215))) (EChoice (ESeq (ECall 175) (ECall 213)) (EChoice (ESeq (ECall 175) (ECall 219)) (ECall 175)))))))))))))))))))))))))))))))))))))))))))))))));
  (* toaq.peggy:443, toaq.go:85521 *)
  (306%positive, Rule "desinence__â__û__î__ô__ê" None
    (EChoice (ESeq (ECall 178) (ECall 215)) (EChoice (ESeq (ECall 178) (ECall 207)) (EChoice (ESeq (ECall 178) (ECall 213)) (EChoice (ECall 178) (EChoice (ESeq (ECall 179) (ECall 215)) (EChoice (ESeq (ECall 179) (ESeq (ECall 199) (ECall 215))) (EChoice (ESeq (ECall 179) (ESeq (ECall 199) (ECall 207))) (EChoice (ESeq (ECall 179) (ESeq (ECall 199) (ECall 213))) (EChoice (ESeq (ECall 179) (ECall 199)) (EChoice (ESeq (ECall 179) (ECall 207)) (EChoice (ESeq (ECall 179) (ESeq (ECall 213) (ECall 215))) (EChoice (ESeq (ECall 179) (ESeq (ECall 213) (ECall 207))) (EChoice (ESeq (ECall 179) (ECall 213)) (EChoice (ESeq (ECall 179) (ESeq (ECall 203) (ECall 215))) (EChoice (ESeq (ECall 179) (ECall 203)) (EChoice (ECall 179) (EChoice (ESeq (ECall 180) (ECall 215)) (EChoice (ESeq (ECall 180) (ESeq (ECall 199) (ECall 215))) (EChoice (ESeq (ECall 180) (ESeq (ECall 199) (ECall 207))) (EChoice (ESeq (ECall 180) (ESeq (ECall 199) (ECall 213))) (EChoice (ESeq (ECall 180) (ECall 199)) (EChoice (ESeq (ECall 180) (ESeq (ECall 219) (ECall 215))) (EChoice (ESeq (ECall 180) (ECall 219)) (EChoice (ESeq (ECall 180) (ESeq (ECall 213) (ECall 207))) (EChoice (ESeq (ECall 180) (ESeq (ECall 213) (ECall 215))) (EChoice (ESeq (ECall 180) (ECall 213)) (EChoice (ESeq (ECall 180) (ESeq (ECall 203) (ECall 215))) (EChoice (ESeq (ECall 180) (ECall 203)) (EChoice (ECall 180) (EChoice (ESeq (ECall 181) (ECall 215)) (EChoice (ESeq (ECall 181) (ESeq (ECall 199) (ECall 215))) (EChoice (ESeq (ECall 181) (ESeq (ECall 199) (ECall 207))) (EChoice (ESeq (ECall 181) (ESeq (ECall 199) (ECall 213))) (EChoice (ESeq (ECall 181) (ECall 199)) (EChoice (ESeq (ECall 181) (ECall 207)) (EChoice (ESeq (ECall 181) (ESeq (ECall 203) (ECall 215))) (EChoice (ESeq (ECall 181) (ECall 203)) (EChoice (ECall 181) (EChoice (ESeq (ECall 182) (ECall 215)) (EChoice (ESeq (ECall 182) (ESeq (ECall 199) (ECall 215))) (EChoice (ESeq (ECall 182) (ESeq (ECall 199) (ECall 207))) (EChoice (ESeq (ECall 182) (ESeq (ECall 199) (ECall 213))) (EChoice (ESeq (ECall 182) (ECall 199)) (EChoice (ESeq (ECall 182) (ECall 207)) (EChoice (ESeq (ECall 182) (ESeq (ECall 213) (ECall 215))) (EChoice (ESeq (ECall 182) (ECall 213)) (EChoice (ESeq (ECall 182) (ECall 219)) (ECall 182)))))))))))))))))))))))))))))))))))))))))))))))));
  (* toaq.peggy:443, toaq.go:88820 *)
  (307%positive, Rule "desinence__à__ù__ì__ò__è" None
    (EChoice (ESeq (ECall 185) (ECall 215)) (EChoice (ESeq (ECall 185) (ECall 207)) (EChoice (ESeq (ECall 185) (ECall 213)) (EChoice (ECall 185) (EChoice (ESeq (ECall 186) (ECall 215)) (EChoice (ESeq (ECall 186) (ESeq (ECall 199) (ECall 215))) (EChoice (ESeq (ECall 186) (ESeq (ECall 199) (ECall 207))) (EChoice (ESeq (ECall 186) (ESeq (ECall 199) (ECall 213))) (EChoice (ESeq (ECall 186) (ECall 199)) (EChoice (ESeq (ECall 186) (ECall 207)) (EChoice (ESeq (ECall 186) (ESeq (ECall 213) (ECall 215))) (EChoice (ESeq (ECall 186) (ESeq (ECall 213) (ECall 207))) (EChoice (ESeq (ECall 186) (ECall 213)) (EChoice (ESeq (ECall 186) (ESeq (ECall 203) (ECall 215))) (EChoice (ESeq (ECall 186) (ECall 203)) (EChoice (ECall 186) (EChoice (ESeq (ECall 187) (ECall 215)) (EChoice (ESeq (ECall 187) (ESeq (ECall 199) (ECall 215))) (EChoice (ESeq (ECall 187) (ESeq (ECall 199) (ECall 207))) (EChoice (ESeq (ECall 187) (ESeq (ECall 199) (ECall 213))) (EChoice (ESeq (ECall 187) (ECall 199)) (EChoice (ESeq (ECall 187) (ESeq (ECall 219) (ECall 215))) (EChoice (ESeq (ECall 187) (ECall 219)) (EChoice (ESeq (ECall 187) (ESeq (ECall 213) (ECall 207))) (EChoice (ESeq (ECall 187) (ESeq (ECall 213) (ECall 215))) (EChoice (ESeq (ECall 187) (ECall 213)) (EChoice (ESeq (ECall 187) (ESeq (ECall 203) (ECall 215))) (EChoice (ESeq (ECall 187) (ECall 203)) (EChoice (ECall 187) (EChoice (ESeq (ECall 188) (ECall 215)) (EChoice (ESeq (ECall 188) (ESeq (ECall 199) (ECall 215))) (EChoice (ESeq (ECall 188) (ESeq (ECall 199) (ECall 207))) (EChoice (ESeq (ECall 188) (ESeq (ECall 199) (ECall 213))) (EChoice (ESeq (ECall 188) (ECall 199)) (EChoice (ESeq (ECall 188) (ECall 207)) (EChoice (ESeq (ECall 188) (ESeq (ECall 203) (ECall 215))) (EChoice (ESeq (ECall 188) (ECall 203)) (EChoice (ECall 188) (EChoice (ESeq (ECall 189) (ECall 215)) (EChoice (ESeq (ECall 189) (ESeq (ECall 199) (ECall 215))) (EChoice (ESeq (ECall 189) (ESeq (ECall 199) (ECall 207))) (EChoice (ESeq (ECall 189) (ESeq (ECall 199) (ECall 213))) (EChoice (ESeq (ECall 189) (ECall 199)) (EChoice (ESeq (ECall 189) (ECall 207)) (EChoice (ESeq (ECall 189) (ESeq (ECall 213) (ECall 215))) (EChoice (ESeq (ECall 189) (ECall 213)) (EChoice (ESeq (ECall 189) (ECall 219)) (ECall 189)))))))))))))))))))))))))))))))))))))))))))))))));
  (* toaq.peggy:443, toaq.go:92119 *)
  (308%positive, Rule "desinence__ã__ũ__ĩ__õ__ẽ" None
    (EChoice (ESeq (ECall 192) (ECall 215)) (EChoice (ESeq (ECall 192) (ECall 207)) (EChoice (ESeq (ECall 192) (ECall 213)) (EChoice (ECall 192) (EChoice (ESeq (ECall 193) (ECall 215)) (EChoice (ESeq (ECall 193) (ESeq (ECall 199) (ECall 215))) (EChoice (ESeq (ECall 193) (ESeq (ECall 199) (ECall 207))) (EChoice (ESeq (ECall 193) (ESeq (ECall 199) (ECall 213))) (EChoice (ESeq (ECall 193) (ECall 199)) (EChoice (ESeq (ECall 193) (ECall 207)) (EChoice (ESeq (ECall 193) (ESeq (ECall 213) (ECall 215))) (EChoice (ESeq (ECall 193) (ESeq (ECall 213) (ECall 207))) (EChoice (ESeq (ECall 193) (ECall 213)) (EChoice (ESeq (ECall 193) (ESeq (ECall 203) (ECall 215))) (EChoice (ESeq (ECall 193) (ECall 203)) (EChoice (ECall 193) (EChoice (ESeq (ECall 194) (ECall 215)) (EChoice (ESeq (ECall 194) (ESeq (ECall 199) (ECall 215))) (EChoice (ESeq (ECall 194) (ESeq (ECall 199) (ECall 207))) (EChoice (ESeq (ECall 194) (ESeq (ECall 199) (ECall 213))) (EChoice (ESeq (ECall 194) (ECall 199)) (EChoice (ESeq (ECall 194) (ESeq (ECall 219) (ECall 215))) (EChoice (ESeq (ECall 194) (ECall 219)) (EChoice (ESeq (ECall 194) (ESeq (ECall 213) (ECall 207))) (EChoice (ESeq (ECall 194) (ESeq (ECall 213) (ECall 215))) (EChoice (ESeq (ECall 194) (ECall 213)) (EChoice (ESeq (ECall 194) (ESeq (ECall 203) (ECall 215))) (EChoice (ESeq (ECall 194) (ECall 203)) (EChoice (ECall 194) (EChoice (ESeq (ECall 195) (ECall 215)) (EChoice (ESeq (ECall 195) (ESeq (ECall 199) (ECall 215))) (EChoice (ESeq (ECall 195) (ESeq (ECall 199) (ECall 207))) (EChoice (ESeq (ECall 195) (ESeq (ECall 199) (ECall 213))) (EChoice (ESeq (ECall 195) (ECall 199)) (EChoice (ESeq (ECall 195) (ECall 207)) (EChoice (ESeq (ECall 195) (ESeq (ECall 203) (ECall 215))) (EChoice (ESeq (ECall 195) (ECall 203)) (EChoice (ECall 195) (EChoice (ESeq (ECall 196) (ECall 215)) (EChoice (ESeq (ECall 196) (ESeq (ECall 199) (ECall 215))) (EChoice (ESeq (ECall 196) (ESeq (ECall 199) (ECall 207))) (EChoice (ESeq (ECall 196) (ESeq (ECall 199) (ECall 213))) (EChoice (ESeq (ECall 196) (ECall 199)) (EChoice (ESeq (ECall 196) (ECall 207)) (EChoice (ESeq (ECall 196) (ESeq (ECall 213) (ECall 215))) (EChoice (ESeq (ECall 196) (ECall 213)) (EChoice (ESeq (ECall 196) (ECall 219)) (ECall 196)))))))))))))))))))))))))))))))))))))))))))))))));
  (* toaq.peggy:277, toaq.go:95418 *)
  (309%positive, Rule "cop_bar__relative_clause" None
    (EAction ACopRight [0; 1; 2]%nat (ESeq (ELabel 0 (ECall 96)) (ESeq (ELabel 1 (ECall 72)) (ELabel 2 (ECall 42))))));
  (* toaq.peggy:277, toaq.go:95627 *)
  (310%positive, Rule "cop_bar__sentence" None
    (EAction ACopRight [0; 1; 2]%nat (ESeq (ELabel 0 (ECall 96)) (ESeq (ELabel 1 (ECall 72)) (ELabel 2 (ECall 5))))));
  (* toaq.peggy:282, toaq.go:95836 *)
  (311%positive, Rule "forethought_cop_1__sentence__sentence" None
    (EAction AForeLeft [0; 1; 2]%nat (ESeq (ELabel 0 (ECall 5)) (ESeq (ELabel 1 (ECall 72)) (ELabel 2 (ECall 363))))));
  (* toaq.peggy:277, toaq.go:96045 *)
  (312%positive, Rule "cop_bar__statement" None
    (EAction ACopRight [0; 1; 2]%nat (ESeq (ELabel 0 (ECall 96)) (ESeq (ELabel 1 (ECall 72)) (ELabel 2 (ECall 10))))));
  (* toaq.peggy:282, toaq.go:96254 *)
  (313%positive, Rule "forethought_cop_1__statement__statement" None
    (EAction AForeLeft [0; 1; 2]%nat (ESeq (ELabel 0 (ECall 10)) (ESeq (ELabel 1 (ECall 72)) (ELabel 2 (ECall 364))))));
  (* toaq.peggy:277, toaq.go:96463 *)
  (314%positive, Rule "cop_bar__predicate_1" None
    (EAction ACopRight [0; 1; 2]%nat (ESeq (ELabel 0 (ECall 96)) (ESeq (ELabel 1 (ECall 72)) (ELabel 2 (ECall 18))))));
  (* toaq.peggy:280, toaq.go:96672 *)
  (315%positive, Rule "forethought_cop__predicate__predicate" None
    (EAction AForeCoP [0; 1; 2]%nat (ESeq (ELabel 0 (ECall 70)) (ESeq (ELabel 1 (ECall 72)) (ELabel 2 (ECall 365))))));
  (* toaq.peggy:295, toaq.go:96881 *)
  (316%positive, Rule "LU_phrase__verb_syllable" None
    (EAction ALUPhrase [0; 1; 2]%nat (ESeq (ELabel 0 (ECall 366)) (ESeq (ELabel 1 (ECall 72)) (ELabel 2 (ECall 10))))));
  (* toaq.peggy:303, toaq.go:97090 *)
  (317%positive, Rule "MI_phrase_1__verb_syllable" None
    (EAction AMi [0; 1; 2]%nat (ESeq (ELabel 0 (ECall 367)) (ESeq (ELabel 1 (ECall 72)) (ELabel 2 (ECall 71))))));
  (* toaq.peggy:315, toaq.go:97299 *)
  (318%positive, Rule "PO_phrase_1__verb_syllable" None
    (EAction APo [0; 1; 2]%nat (ESeq (ELabel 0 (ECall 368)) (ESeq (ELabel 1 (ECall 72)) (ELabel 2 (ECall 32))))));
  (* toaq.peggy:325, toaq.go:97508 *)
  (319%positive, Rule "MO_phrase_1__verb_syllable" None
    (EAction AMo [0; 1; 2]%nat (ESeq (ELabel 0 (ECall 369)) (ESeq (ELabel 1 (EOpt (ECall 74))) (ELabel 2 (ECall 3))))));
  (* toaq.peggy:282, toaq.go:97753 *)
  (320%positive, Rule "forethought_cop_1__terms_V__terms_V" None
    (EAction AForeLeft [0; 1; 2]%nat (ESeq (ELabel 0 (ECall 31)) (ESeq (ELabel 1 (ECall 72)) (ELabel 2 (ECall 370))))));
  (* toaq.peggy:282, toaq.go:97962 *)
  (321%positive, Rule "forethought_cop_1__terms_IV__terms_IV" None
    (EAction AForeLeft [0; 1; 2]%nat (ESeq (ELabel 0 (ECall 30)) (ESeq (ELabel 1 (ECall 72)) (ELabel 2 (ECall 371))))));
  (* toaq.peggy:282, toaq.go:98171 *)
  (322%positive, Rule "forethought_cop_1__terms_III__terms_III" None
    (EAction AForeLeft [0; 1; 2]%nat (ESeq (ELabel 0 (ECall 29)) (ESeq (ELabel 1 (ECall 72)) (ELabel 2 (ECall 372))))));
  (* toaq.peggy:282, toaq.go:98380 *)
  (323%positive, Rule "forethought_cop_1__terms_II__terms_II" None
    (EAction AForeLeft [0; 1; 2]%nat (ESeq (ELabel 0 (ECall 28)) (ESeq (ELabel 1 (ECall 72)) (ELabel 2 (ECall 373))))));
  (* toaq.peggy:277, toaq.go:98589 *)
  (324%positive, Rule "cop_bar__argument" None
    (EAction ACopRight [0; 1; 2]%nat (ESeq (ELabel 0 (ECall 96)) (ESeq (ELabel 1 (ECall 72)) (ELabel 2 (ECall 32))))));
  (* toaq.peggy:282, toaq.go:98798 *)
  (325%positive, Rule "forethought_cop_1__argument__argument" None
    (EAction AForeLeft [0; 1; 2]%nat (ESeq (ELabel 0 (ECall 32)) (ESeq (ELabel 1 (ECall 72)) (ELabel 2 (ECall 374))))));
  (* toaq.peggy:275, toaq.go:99007 *)
  (326%positive, Rule "afterthought_cop__arg_7__predicate" None
    (EAction ACopLeft [0; 1; 2]%nat (ESeq (ELabel 0 (ECall 41)) (ESeq (ELabel 1 (ECall 72)) (ELabel 2 (ECall 375))))));
  (* toaq.peggy:280, toaq.go:99216 *)
  (327%positive, Rule "forethought_cop__arg_5__predicate" None
    (EAction AForeCoP [0; 1; 2]%nat (ESeq (ELabel 0 (ECall 70)) (ESeq (ELabel 1 (ECall 72)) (ELabel 2 (ECall 376))))));
  (* toaq.peggy:295, toaq.go:99425 *)
  (328%positive, Rule "LU_phrase__arg_syllable" None
    (EAction ALUPhrase [0; 1; 2]%nat (ESeq (ELabel 0 (ECall 377)) (ESeq (ELabel 1 (ECall 72)) (ELabel 2 (ECall 10))))));
  (* toaq.peggy:303, toaq.go:99634 *)
  (329%positive, Rule "MI_phrase_1__arg_syllable" None
    (EAction AMi [0; 1; 2]%nat (ESeq (ELabel 0 (ECall 378)) (ESeq (ELabel 1 (ECall 72)) (ELabel 2 (ECall 71))))));
  (* toaq.peggy:315, toaq.go:99843 *)
  (330%positive, Rule "PO_phrase_1__arg_syllable" None
    (EAction APo [0; 1; 2]%nat (ESeq (ELabel 0 (ECall 379)) (ESeq (ELabel 1 (ECall 72)) (ELabel 2 (ECall 32))))));
  (* toaq.peggy:325, toaq.go:100052 *)
  (331%positive, Rule "MO_phrase_1__arg_syllable" None
    (EAction AMo [0; 1; 2]%nat (ESeq (ELabel 0 (ECall 380)) (ESeq (ELabel 1 (EOpt (ECall 74))) (ELabel 2 (ECall 3))))));
  (* toaq.peggy:297, toaq.go:100297 *)
  (332%positive, Rule "LU_word__relative_syllable" None
    (EAction AWord [0]%nat (ESeq (EAnd (ECall 115)) (ELabel 0 (ECall 128)))));
  (* toaq.peggy:282, toaq.go:100498 *)
  (333%positive, Rule "forethought_cop_1__relative_clause__relative_clause" None
    (EAction AForeLeft [0; 1; 2]%nat (ESeq (ELabel 0 (ECall 42)) (ESeq (ELabel 1 (ECall 72)) (ELabel 2 (ECall 381))))));
  (* toaq.peggy:275, toaq.go:100707 *)
  (334%positive, Rule "afterthought_cop__relative_predicate_2__predicate" None
    (EAction ACopLeft [0; 1; 2]%nat (ESeq (ELabel 0 (ECall 49)) (ESeq (ELabel 1 (ECall 72)) (ELabel 2 (ECall 375))))));
  (* toaq.peggy:280, toaq.go:100916 *)
  (335%positive, Rule "forethought_cop__relative_predicate__predicate" None
    (EAction AForeCoP [0; 1; 2]%nat (ESeq (ELabel 0 (ECall 70)) (ESeq (ELabel 1 (ECall 72)) (ELabel 2 (ECall 382))))));
  (* toaq.peggy:303, toaq.go:101125 *)
  (336%positive, Rule "MI_phrase_1__relative_syllable" None
    (EAction AMi [0; 1; 2]%nat (ESeq (ELabel 0 (ECall 383)) (ESeq (ELabel 1 (ECall 72)) (ELabel 2 (ECall 71))))));
  (* toaq.peggy:315, toaq.go:101334 *)
  (337%positive, Rule "PO_phrase_1__relative_syllable" None
    (EAction APo [0; 1; 2]%nat (ESeq (ELabel 0 (ECall 384)) (ESeq (ELabel 1 (ECall 72)) (ELabel 2 (ECall 32))))));
  (* toaq.peggy:325, toaq.go:101543 *)
  (338%positive, Rule "MO_phrase_1__relative_syllable" None
    (EAction AMo [0; 1; 2]%nat (ESeq (ELabel 0 (ECall 385)) (ESeq (ELabel 1 (EOpt (ECall 74))) (ELabel 2 (ECall 3))))));
  (* toaq.peggy:277, toaq.go:101788 *)
  (339%positive, Rule "cop_bar__adverb" None
    (EAction ACopRight [0; 1; 2]%nat (ESeq (ELabel 0 (ECall 96)) (ESeq (ELabel 1 (ECall 72)) (ELabel 2 (ECall 50))))));
  (* toaq.peggy:282, toaq.go:101997 *)
  (340%positive, Rule "forethought_cop_1__adverb__adverb" None
    (EAction AForeLeft [0; 1; 2]%nat (ESeq (ELabel 0 (ECall 50)) (ESeq (ELabel 1 (ECall 72)) (ELabel 2 (ECall 386))))));
  (* toaq.peggy:275, toaq.go:102206 *)
  (341%positive, Rule "afterthought_cop__adverb_4__predicate" None
    (EAction ACopLeft [0; 1; 2]%nat (ESeq (ELabel 0 (ECall 54)) (ESeq (ELabel 1 (ECall 72)) (ELabel 2 (ECall 375))))));
  (* toaq.peggy:280, toaq.go:102415 *)
  (342%positive, Rule "forethought_cop__adverb_3__predicate" None
    (EAction AForeCoP [0; 1; 2]%nat (ESeq (ELabel 0 (ECall 70)) (ESeq (ELabel 1 (ECall 72)) (ELabel 2 (ECall 387))))));
  (* toaq.peggy:295, toaq.go:102624 *)
  (343%positive, Rule "LU_phrase__adverb_syllable" None
    (EAction ALUPhrase [0; 1; 2]%nat (ESeq (ELabel 0 (ECall 388)) (ESeq (ELabel 1 (ECall 72)) (ELabel 2 (ECall 10))))));
  (* toaq.peggy:303, toaq.go:102833 *)
  (344%positive, Rule "MI_phrase_1__adverb_syllable" None
    (EAction AMi [0; 1; 2]%nat (ESeq (ELabel 0 (ECall 389)) (ESeq (ELabel 1 (ECall 72)) (ELabel 2 (ECall 71))))));
  (* toaq.peggy:315, toaq.go:103042 *)
  (345%positive, Rule "PO_phrase_1__adverb_syllable" None
    (EAction APo [0; 1; 2]%nat (ESeq (ELabel 0 (ECall 390)) (ESeq (ELabel 1 (ECall 72)) (ELabel 2 (ECall 32))))));
  (* toaq.peggy:325, toaq.go:103251 *)
  (346%positive, Rule "MO_phrase_1__adverb_syllable" None
    (EAction AMo [0; 1; 2]%nat (ESeq (ELabel 0 (ECall 391)) (ESeq (ELabel 1 (EOpt (ECall 74))) (ELabel 2 (ECall 3))))));
  (* toaq.peggy:277, toaq.go:103496 *)
  (347%positive, Rule "cop_bar__prepositional_phrase" None
    (EAction ACopRight [0; 1; 2]%nat (ESeq (ELabel 0 (ECall 96)) (ESeq (ELabel 1 (ECall 72)) (ELabel 2 (ECall 55))))));
  (* toaq.peggy:282, toaq.go:103705 *)
  (348%positive, Rule "forethought_cop_1__prepositional_phrase__prepositional_phrase" None
    (EAction AForeLeft [0; 1; 2]%nat (ESeq (ELabel 0 (ECall 55)) (ESeq (ELabel 1 (ECall 72)) (ELabel 2 (ECall 392))))));
  (* toaq.peggy:277, toaq.go:103914 *)
  (349%positive, Rule "cop_bar__preposition" None
    (EAction ACopRight [0; 1; 2]%nat (ESeq (ELabel 0 (ECall 96)) (ESeq (ELabel 1 (ECall 72)) (ELabel 2 (ECall 58))))));
  (* toaq.peggy:282, toaq.go:104123 *)
  (350%positive, Rule "forethought_cop_1__preposition__preposition" None
    (EAction AForeLeft [0; 1; 2]%nat (ESeq (ELabel 0 (ECall 58)) (ESeq (ELabel 1 (ECall 72)) (ELabel 2 (ECall 393))))));
  (* toaq.peggy:275, toaq.go:104332 *)
  (351%positive, Rule "afterthought_cop__preposition_4__predicate" None
    (EAction ACopLeft [0; 1; 2]%nat (ESeq (ELabel 0 (ECall 62)) (ESeq (ELabel 1 (ECall 72)) (ELabel 2 (ECall 375))))));
  (* toaq.peggy:280, toaq.go:104541 *)
  (352%positive, Rule "forethought_cop__preposition__predicate" None
    (EAction AForeCoP [0; 1; 2]%nat (ESeq (ELabel 0 (ECall 70)) (ESeq (ELabel 1 (ECall 72)) (ELabel 2 (ECall 394))))));
  (* toaq.peggy:295, toaq.go:104750 *)
  (353%positive, Rule "LU_phrase__preposition_syllable" None
    (EAction ALUPhrase [0; 1; 2]%nat (ESeq (ELabel 0 (ECall 395)) (ESeq (ELabel 1 (ECall 72)) (ELabel 2 (ECall 10))))));
  (* toaq.peggy:303, toaq.go:104959 *)
  (354%positive, Rule "MI_phrase_1__preposition_syllable" None
    (EAction AMi [0; 1; 2]%nat (ESeq (ELabel 0 (ECall 396)) (ESeq (ELabel 1 (ECall 72)) (ELabel 2 (ECall 71))))));
  (* toaq.peggy:315, toaq.go:105168 *)
  (355%positive, Rule "PO_phrase_1__preposition_syllable" None
    (EAction APo [0; 1; 2]%nat (ESeq (ELabel 0 (ECall 397)) (ESeq (ELabel 1 (ECall 72)) (ELabel 2 (ECall 32))))));
  (* toaq.peggy:325, toaq.go:105377 *)
  (356%positive, Rule "MO_phrase_1__preposition_syllable" None
    (EAction AMo [0; 1; 2]%nat (ESeq (ELabel 0 (ECall 398)) (ESeq (ELabel 1 (EOpt (ECall 74))) (ELabel 2 (ECall 3))))));
  (* toaq.peggy:297, toaq.go:105622 *)
  (357%positive, Rule "LU_word__content_syllable" None
    (EAction AWord [0]%nat (ESeq (EAnd (ECall 115)) (ELabel 0 (ECall 130)))));
  (* toaq.peggy:275, toaq.go:105823 *)
  (358%positive, Rule "afterthought_cop__content_predicate_2__predicate" None
    (EAction ACopLeft [0; 1; 2]%nat (ESeq (ELabel 0 (ECall 69)) (ESeq (ELabel 1 (ECall 72)) (ELabel 2 (ECall 375))))));
  (* toaq.peggy:280, toaq.go:106032 *)
  (359%positive, Rule "forethought_cop__content_predicate_2__predicate" None
    (EAction AForeCoP [0; 1; 2]%nat (ESeq (ELabel 0 (ECall 70)) (ESeq (ELabel 1 (ECall 72)) (ELabel 2 (ECall 399))))));
  (* toaq.peggy:303, toaq.go:106241 *)
  (360%positive, Rule "MI_phrase_1__content_syllable" None
    (EAction AMi [0; 1; 2]%nat (ESeq (ELabel 0 (ECall 400)) (ESeq (ELabel 1 (ECall 72)) (ELabel 2 (ECall 71))))));
  (* toaq.peggy:315, toaq.go:106450 *)
  (361%positive, Rule "PO_phrase_1__content_syllable" None
    (EAction APo [0; 1; 2]%nat (ESeq (ELabel 0 (ECall 401)) (ESeq (ELabel 1 (ECall 72)) (ELabel 2 (ECall 32))))));
  (* toaq.peggy:325, toaq.go:106659 *)
  (362%positive, Rule "MO_phrase_1__content_syllable" None
    (EAction AMo [0; 1; 2]%nat (ESeq (ELabel 0 (ECall 402)) (ESeq (ELabel 1 (EOpt (ECall 74))) (ELabel 2 (ECall 3))))));
  (* toaq.peggy:284, toaq.go:106904 *)
  (363%positive, Rule "forethought_cop_bar__sentence" None
    (EAction AForeRight [0; 1; 2]%nat (ESeq (ELabel 0 (ECall 101)) (ESeq (ELabel 1 (ECall 72)) (ELabel 2 (ECall 5))))));
  (* toaq.peggy:284, toaq.go:107113 *)
  (364%positive, Rule "forethought_cop_bar__statement" None
    (EAction AForeRight [0; 1; 2]%nat (ESeq (ELabel 0 (ECall 101)) (ESeq (ELabel 1 (ECall 72)) (ELabel 2 (ECall 10))))));
  (* toaq.peggy:282, toaq.go:107322 *)
  (365%positive, Rule "forethought_cop_1__predicate__predicate" None
    (EAction AForeLeft [0; 1; 2]%nat (ESeq (ELabel 0 (ECall 17)) (ESeq (ELabel 1 (ECall 72)) (ELabel 2 (ECall 403))))));
  (* toaq.peggy:297, toaq.go:107531 *)
  (366%positive, Rule "LU_word__verb_syllable" None
    (EAction AWord [0]%nat (ESeq (EAnd (ECall 115)) (ELabel 0 (ECall 129)))));
  (* toaq.peggy:305, toaq.go:107732 *)
  (367%positive, Rule "MI_word__verb_syllable" None
    (EAction AWord [0]%nat (ESeq (EAnd (ECall 116)) (ELabel 0 (ECall 129)))));
  (* toaq.peggy:317, toaq.go:107933 *)
  (368%positive, Rule "PO_word__verb_syllable" None
    (EAction AWord [0]%nat (ESeq (EAnd (ECall 119)) (ELabel 0 (ECall 129)))));
  (* toaq.peggy:327, toaq.go:108134 *)
  (369%positive, Rule "MO_word__verb_syllable" None
    (EAction AWord [0]%nat (ESeq (EAnd (ECall 117)) (ELabel 0 (ECall 129)))));
  (* toaq.peggy:284, toaq.go:108335 *)
  (370%positive, Rule "forethought_cop_bar__terms_V" None
    (EAction AForeRight [0; 1; 2]%nat (ESeq (ELabel 0 (ECall 101)) (ESeq (ELabel 1 (ECall 72)) (ELabel 2 (ECall 31))))));
  (* toaq.peggy:284, toaq.go:108544 *)
  (371%positive, Rule "forethought_cop_bar__terms_IV" None
    (EAction AForeRight [0; 1; 2]%nat (ESeq (ELabel 0 (ECall 101)) (ESeq (ELabel 1 (ECall 72)) (ELabel 2 (ECall 30))))));
  (* toaq.peggy:284, toaq.go:108753 *)
  (372%positive, Rule "forethought_cop_bar__terms_III" None
    (EAction AForeRight [0; 1; 2]%nat (ESeq (ELabel 0 (ECall 101)) (ESeq (ELabel 1 (ECall 72)) (ELabel 2 (ECall 29))))));
  (* toaq.peggy:284, toaq.go:108962 *)
  (373%positive, Rule "forethought_cop_bar__terms_II" None
    (EAction AForeRight [0; 1; 2]%nat (ESeq (ELabel 0 (ECall 101)) (ESeq (ELabel 1 (ECall 72)) (ELabel 2 (ECall 28))))));
  (* toaq.peggy:284, toaq.go:109171 *)
  (374%positive, Rule "forethought_cop_bar__argument" None
    (EAction AForeRight [0; 1; 2]%nat (ESeq (ELabel 0 (ECall 101)) (ESeq (ELabel 1 (ECall 72)) (ELabel 2 (ECall 32))))));
  (* toaq.peggy:277, toaq.go:109380 *)
  (375%positive, Rule "cop_bar__predicate" None
    (EAction ACopRight [0; 1; 2]%nat (ESeq (ELabel 0 (ECall 96)) (ESeq (ELabel 1 (ECall 72)) (ELabel 2 (ECall 17))))));
  (* toaq.peggy:282, toaq.go:109589 *)
  (376%positive, Rule "forethought_cop_1__arg_5__predicate" None
    (EAction AForeLeft [0; 1; 2]%nat (ESeq (ELabel 0 (ECall 39)) (ESeq (ELabel 1 (ECall 72)) (ELabel 2 (ECall 403))))));
  (* toaq.peggy:297, toaq.go:109798 *)
  (377%positive, Rule "LU_word__arg_syllable" None
    (EAction AWord [0]%nat (ESeq (EAnd (ECall 115)) (ELabel 0 (ECall 127)))));
  (* toaq.peggy:305, toaq.go:109999 *)
  (378%positive, Rule "MI_word__arg_syllable" None
    (EAction AWord [0]%nat (ESeq (EAnd (ECall 116)) (ELabel 0 (ECall 127)))));
  (* toaq.peggy:317, toaq.go:110200 *)
  (379%positive, Rule "PO_word__arg_syllable" None
    (EAction AWord [0]%nat (ESeq (EAnd (ECall 119)) (ELabel 0 (ECall 127)))));
  (* toaq.peggy:327, toaq.go:110401 *)
  (380%positive, Rule "MO_word__arg_syllable" None
    (EAction AWord [0]%nat (ESeq (EAnd (ECall 117)) (ELabel 0 (ECall 127)))));
  (* toaq.peggy:284, toaq.go:110602 *)
  (381%positive, Rule "forethought_cop_bar__relative_clause" None
    (EAction AForeRight [0; 1; 2]%nat (ESeq (ELabel 0 (ECall 101)) (ESeq (ELabel 1 (ECall 72)) (ELabel 2 (ECall 42))))));
  (* toaq.peggy:282, toaq.go:110811 *)
  (382%positive, Rule "forethought_cop_1__relative_predicate__predicate" None
    (EAction AForeLeft [0; 1; 2]%nat (ESeq (ELabel 0 (ECall 47)) (ESeq (ELabel 1 (ECall 72)) (ELabel 2 (ECall 403))))));
  (* toaq.peggy:305, toaq.go:111020 *)
  (383%positive, Rule "MI_word__relative_syllable" None
    (EAction AWord [0]%nat (ESeq (EAnd (ECall 116)) (ELabel 0 (ECall 128)))));
  (* toaq.peggy:317, toaq.go:111221 *)
  (384%positive, Rule "PO_word__relative_syllable" None
    (EAction AWord [0]%nat (ESeq (EAnd (ECall 119)) (ELabel 0 (ECall 128)))));
  (* toaq.peggy:327, toaq.go:111422 *)
  (385%positive, Rule "MO_word__relative_syllable" None
    (EAction AWord [0]%nat (ESeq (EAnd (ECall 117)) (ELabel 0 (ECall 128)))));
  (* toaq.peggy:284, toaq.go:111623 *)
  (386%positive, Rule "forethought_cop_bar__adverb" None
    (EAction AForeRight [0; 1; 2]%nat (ESeq (ELabel 0 (ECall 101)) (ESeq (ELabel 1 (ECall 72)) (ELabel 2 (ECall 50))))));
  (* toaq.peggy:282, toaq.go:111832 *)
  (387%positive, Rule "forethought_cop_1__adverb_3__predicate" None
    (EAction AForeLeft [0; 1; 2]%nat (ESeq (ELabel 0 (ECall 53)) (ESeq (ELabel 1 (ECall 72)) (ELabel 2 (ECall 403))))));
  (* toaq.peggy:297, toaq.go:112041 *)
  (388%positive, Rule "LU_word__adverb_syllable" None
    (EAction AWord [0]%nat (ESeq (EAnd (ECall 115)) (ELabel 0 (ECall 132)))));
  (* toaq.peggy:305, toaq.go:112242 *)
  (389%positive, Rule "MI_word__adverb_syllable" None
    (EAction AWord [0]%nat (ESeq (EAnd (ECall 116)) (ELabel 0 (ECall 132)))));
  (* toaq.peggy:317, toaq.go:112443 *)
  (390%positive, Rule "PO_word__adverb_syllable" None
    (EAction AWord [0]%nat (ESeq (EAnd (ECall 119)) (ELabel 0 (ECall 132)))));
  (* toaq.peggy:327, toaq.go:112644 *)
  (391%positive, Rule "MO_word__adverb_syllable" None
    (EAction AWord [0]%nat (ESeq (EAnd (ECall 117)) (ELabel 0 (ECall 132)))));
  (* toaq.peggy:284, toaq.go:112845 *)
  (392%positive, Rule "forethought_cop_bar__prepositional_phrase" None
    (EAction AForeRight [0; 1; 2]%nat (ESeq (ELabel 0 (ECall 101)) (ESeq (ELabel 1 (ECall 72)) (ELabel 2 (ECall 55))))));
  (* toaq.peggy:284, toaq.go:113054 *)
  (393%positive, Rule "forethought_cop_bar__preposition" None
    (EAction AForeRight [0; 1; 2]%nat (ESeq (ELabel 0 (ECall 101)) (ESeq (ELabel 1 (ECall 72)) (ELabel 2 (ECall 58))))));
  (* toaq.peggy:282, toaq.go:113263 *)
  (394%positive, Rule "forethought_cop_1__preposition__predicate" None
    (EAction AForeLeft [0; 1; 2]%nat (ESeq (ELabel 0 (ECall 58)) (ESeq (ELabel 1 (ECall 72)) (ELabel 2 (ECall 403))))));
  (* toaq.peggy:297, toaq.go:113472 *)
  (395%positive, Rule "LU_word__preposition_syllable" None
    (EAction AWord [0]%nat (ESeq (EAnd (ECall 115)) (ELabel 0 (ECall 131)))));
  (* toaq.peggy:305, toaq.go:113673 *)
  (396%positive, Rule "MI_word__preposition_syllable" None
    (EAction AWord [0]%nat (ESeq (EAnd (ECall 116)) (ELabel 0 (ECall 131)))));
  (* toaq.peggy:317, toaq.go:113874 *)
  (397%positive, Rule "PO_word__preposition_syllable" None
    (EAction AWord [0]%nat (ESeq (EAnd (ECall 119)) (ELabel 0 (ECall 131)))));
  (* toaq.peggy:327, toaq.go:114075 *)
  (398%positive, Rule "MO_word__preposition_syllable" None
    (EAction AWord [0]%nat (ESeq (EAnd (ECall 117)) (ELabel 0 (ECall 131)))));
  (* toaq.peggy:282, toaq.go:114276 *)
  (399%positive, Rule "forethought_cop_1__content_predicate_2__predicate" None
    (EAction AForeLeft [0; 1; 2]%nat (ESeq (ELabel 0 (ECall 69)) (ESeq (ELabel 1 (ECall 72)) (ELabel 2 (ECall 403))))));
  (* toaq.peggy:305, toaq.go:114485 *)
  (400%positive, Rule "MI_word__content_syllable" None
    (EAction AWord [0]%nat (ESeq (EAnd (ECall 116)) (ELabel 0 (ECall 130)))));
  (* toaq.peggy:317, toaq.go:114686 *)
  (401%positive, Rule "PO_word__content_syllable" None
    (EAction AWord [0]%nat (ESeq (EAnd (ECall 119)) (ELabel 0 (ECall 130)))));
  (* toaq.peggy:327, toaq.go:114887 *)
  (402%positive, Rule "MO_word__content_syllable" None
    (EAction AWord [0]%nat (ESeq (EAnd (ECall 117)) (ELabel 0 (ECall 130)))));
  (* toaq.peggy:284, toaq.go:115088 *)
  (403%positive, Rule "forethought_cop_bar__predicate" None
    (EAction AForeRight [0; 1; 2]%nat (ESeq (ELabel 0 (ECall 101)) (ESeq (ELabel 1 (ECall 72)) (ELabel 2 (ECall 17))))))
].

(** Rules the API starts from, and a few the theorems mention. *)
Definition r_full_text : positive := 1%positive.  (* toaq.go const _full_text *)
Definition r_text : positive := 2%positive.  (* toaq.go const _text *)
Definition r_word : positive := 80%positive.  (* toaq.go const _word *)
Definition r_EOF : positive := 225%positive.  (* toaq.go const _EOF *)
Definition r_discourse : positive := 3%positive.  (* toaq.go const _discourse *)
Definition r_space : positive := 222%positive.  (* toaq.go const _space *)
Definition r_blank : positive := 72%positive.  (* toaq.go const __ *)
Definition r_sentence_3 : positive := 9%positive.  (* toaq.go const _sentence_3 *)

(** Rules that may succeed without consuming input, and a rank that decreases
    along calls made before anything is consumed; checked in PegToaq.v. *)
Definition nullable_list : list positive := [1; 2; 72; 133; 225]%positive.
Definition rank_list : list (positive * nat) := [(1%positive, 41%nat); (2%positive, 40%nat); (3%positive, 39%nat); (4%positive, 32%nat); (5%positive, 38%nat); (6%positive, 36%nat); (7%positive, 35%nat); (8%positive, 4%nat); (9%positive, 34%nat); (10%positive, 33%nat); (11%positive, 17%nat); (12%positive, 15%nat); (13%positive, 14%nat); (14%positive, 13%nat); (15%positive, 32%nat); (16%positive, 31%nat); (17%positive, 12%nat); (18%positive, 9%nat); (19%positive, 7%nat); (20%positive, 5%nat); (21%positive, 11%nat); (22%positive, 30%nat); (23%positive, 29%nat); (24%positive, 28%nat); (25%positive, 27%nat); (26%positive, 4%nat); (27%positive, 6%nat); (28%positive, 29%nat); (29%positive, 29%nat); (30%positive, 29%nat); (31%positive, 29%nat); (32%positive, 26%nat); (33%positive, 24%nat); (34%positive, 23%nat); (35%positive, 4%nat); (36%positive, 22%nat); (37%positive, 4%nat); (38%positive, 21%nat); (39%positive, 20%nat); (40%positive, 18%nat); (41%positive, 5%nat); (42%positive, 19%nat); (43%positive, 17%nat); (44%positive, 16%nat); (45%positive, 14%nat); (46%positive, 13%nat); (47%positive, 12%nat); (48%positive, 10%nat); (49%positive, 7%nat); (50%positive, 13%nat); (51%positive, 11%nat); (52%positive, 10%nat); (53%positive, 8%nat); (54%positive, 5%nat); (55%positive, 17%nat); (56%positive, 15%nat); (57%positive, 14%nat); (58%positive, 13%nat); (59%positive, 11%nat); (60%positive, 10%nat); (61%positive, 8%nat); (62%positive, 5%nat); (63%positive, 17%nat); (64%positive, 15%nat); (65%positive, 14%nat); (66%positive, 13%nat); (67%positive, 12%nat); (68%positive, 10%nat); (69%positive, 7%nat); (70%positive, 4%nat); (71%positive, 27%nat); (72%positive, 8%nat); (73%positive, 7%nat); (74%positive, 4%nat); (75%positive, 6%nat); (76%positive, 5%nat); (77%positive, 4%nat); (78%positive, 4%nat); (79%positive, 4%nat); (80%positive, 6%nat); (81%positive, 5%nat); (82%positive, 4%nat); (83%positive, 3%nat); (84%positive, 4%nat); (85%positive, 3%nat); (86%positive, 3%nat); (87%positive, 3%nat); (88%positive, 3%nat); (89%positive, 3%nat); (90%positive, 3%nat); (91%positive, 3%nat); (92%positive, 3%nat); (93%positive, 3%nat); (94%positive, 3%nat); (95%positive, 3%nat); (96%positive, 3%nat); (97%positive, 4%nat); (98%positive, 3%nat); (99%positive, 3%nat); (100%positive, 3%nat); (101%positive, 3%nat); (102%positive, 2%nat); (103%positive, 1%nat); (104%positive, 1%nat); (105%positive, 1%nat); (106%positive, 1%nat); (107%positive, 1%nat); (108%positive, 1%nat); (109%positive, 1%nat); (110%positive, 1%nat); (111%positive, 1%nat); (112%positive, 1%nat); (113%positive, 1%nat); (114%positive, 1%nat); (115%positive, 1%nat); (116%positive, 1%nat); (117%positive, 1%nat); (118%positive, 1%nat); (119%positive, 1%nat); (120%positive, 1%nat); (121%positive, 1%nat); (122%positive, 1%nat); (123%positive, 1%nat); (124%positive, 2%nat); (125%positive, 2%nat); (126%positive, 3%nat); (127%positive, 3%nat); (128%positive, 3%nat); (129%positive, 3%nat); (130%positive, 3%nat); (131%positive, 3%nat); (132%positive, 3%nat); (133%positive, 4%nat); (134%positive, 1%nat); (135%positive, 2%nat); (136%positive, 3%nat); (137%positive, 3%nat); (138%positive, 3%nat); (139%positive, 3%nat); (140%positive, 3%nat); (141%positive, 3%nat); (142%positive, 3%nat); (143%positive, 1%nat); (144%positive, 2%nat); (145%positive, 2%nat); (146%positive, 2%nat); (147%positive, 2%nat); (148%positive, 2%nat); (149%positive, 1%nat); (150%positive, 1%nat); (151%positive, 1%nat); (152%positive, 1%nat); (153%positive, 1%nat); (154%positive, 0%nat); (155%positive, 0%nat); (156%positive, 1%nat); (157%positive, 1%nat); (158%positive, 1%nat); (159%positive, 1%nat); (160%positive, 1%nat); (161%positive, 0%nat); (162%positive, 0%nat); (163%positive, 1%nat); (164%positive, 1%nat); (165%positive, 1%nat); (166%positive, 1%nat); (167%positive, 1%nat); (168%positive, 0%nat); (169%positive, 0%nat); (170%positive, 0%nat); (171%positive, 1%nat); (172%positive, 1%nat); (173%positive, 1%nat); (174%positive, 1%nat); (175%positive, 1%nat); (176%positive, 0%nat); (177%positive, 0%nat); (178%positive, 1%nat); (179%positive, 1%nat); (180%positive, 1%nat); (181%positive, 1%nat); (182%positive, 1%nat); (183%positive, 0%nat); (184%positive, 0%nat); (185%positive, 1%nat); (186%positive, 1%nat); (187%positive, 1%nat); (188%positive, 1%nat); (189%positive, 1%nat); (190%positive, 0%nat); (191%positive, 0%nat); (192%positive, 1%nat); (193%positive, 1%nat); (194%positive, 1%nat); (195%positive, 1%nat); (196%positive, 1%nat); (197%positive, 0%nat); (198%positive, 0%nat); (199%positive, 0%nat); (200%positive, 0%nat); (201%positive, 0%nat); (202%positive, 0%nat); (203%positive, 0%nat); (204%positive, 0%nat); (205%positive, 0%nat); (206%positive, 0%nat); (207%positive, 0%nat); (208%positive, 0%nat); (209%positive, 0%nat); (210%positive, 0%nat); (211%positive, 0%nat); (212%positive, 0%nat); (213%positive, 0%nat); (214%positive, 0%nat); (215%positive, 0%nat); (216%positive, 0%nat); (217%positive, 0%nat); (218%positive, 0%nat); (219%positive, 0%nat); (220%positive, 0%nat); (221%positive, 0%nat); (222%positive, 3%nat); (223%positive, 2%nat); (224%positive, 0%nat); (225%positive, 0%nat); (226%positive, 18%nat); (227%positive, 37%nat); (228%positive, 5%nat); (229%positive, 16%nat); (230%positive, 5%nat); (231%positive, 8%nat); (232%positive, 6%nat); (233%positive, 6%nat); (234%positive, 6%nat); (235%positive, 6%nat); (236%positive, 6%nat); (237%positive, 4%nat); (238%positive, 10%nat); (239%positive, 5%nat); (240%positive, 5%nat); (241%positive, 5%nat); (242%positive, 5%nat); (243%positive, 25%nat); (244%positive, 5%nat); (245%positive, 19%nat); (246%positive, 7%nat); (247%positive, 6%nat); (248%positive, 6%nat); (249%positive, 6%nat); (250%positive, 6%nat); (251%positive, 6%nat); (252%positive, 4%nat); (253%positive, 5%nat); (254%positive, 5%nat); (255%positive, 15%nat); (256%positive, 11%nat); (257%positive, 9%nat); (258%positive, 6%nat); (259%positive, 6%nat); (260%positive, 6%nat); (261%positive, 6%nat); (262%positive, 4%nat); (263%positive, 12%nat); (264%positive, 5%nat); (265%positive, 9%nat); (266%positive, 7%nat); (267%positive, 6%nat); (268%positive, 6%nat); (269%positive, 6%nat); (270%positive, 6%nat); (271%positive, 6%nat); (272%positive, 4%nat); (273%positive, 16%nat); (274%positive, 5%nat); (275%positive, 12%nat); (276%positive, 5%nat); (277%positive, 9%nat); (278%positive, 7%nat); (279%positive, 6%nat); (280%positive, 6%nat); (281%positive, 6%nat); (282%positive, 6%nat); (283%positive, 6%nat); (284%positive, 4%nat); (285%positive, 16%nat); (286%positive, 5%nat); (287%positive, 11%nat); (288%positive, 9%nat); (289%positive, 6%nat); (290%positive, 6%nat); (291%positive, 6%nat); (292%positive, 6%nat); (293%positive, 4%nat); (294%positive, 2%nat); (295%positive, 2%nat); (296%positive, 2%nat); (297%positive, 2%nat); (298%positive, 2%nat); (299%positive, 2%nat); (300%positive, 2%nat); (301%positive, 1%nat); (302%positive, 2%nat); (303%positive, 2%nat); (304%positive, 2%nat); (305%positive, 2%nat); (306%positive, 2%nat); (307%positive, 2%nat); (308%positive, 2%nat); (309%positive, 4%nat); (310%positive, 4%nat); (311%positive, 39%nat); (312%positive, 4%nat); (313%positive, 34%nat); (314%positive, 4%nat); (315%positive, 5%nat); (316%positive, 5%nat); (317%positive, 5%nat); (318%positive, 5%nat); (319%positive, 5%nat); (320%positive, 30%nat); (321%positive, 30%nat); (322%positive, 30%nat); (323%positive, 30%nat); (324%positive, 4%nat); (325%positive, 27%nat); (326%positive, 6%nat); (327%positive, 5%nat); (328%positive, 5%nat); (329%positive, 5%nat); (330%positive, 5%nat); (331%positive, 5%nat); (332%positive, 4%nat); (333%positive, 20%nat); (334%positive, 8%nat); (335%positive, 5%nat); (336%positive, 5%nat); (337%positive, 5%nat); (338%positive, 5%nat); (339%positive, 4%nat); (340%positive, 14%nat); (341%positive, 6%nat); (342%positive, 5%nat); (343%positive, 5%nat); (344%positive, 5%nat); (345%positive, 5%nat); (346%positive, 5%nat); (347%positive, 4%nat); (348%positive, 18%nat); (349%positive, 4%nat); (350%positive, 14%nat); (351%positive, 6%nat); (352%positive, 5%nat); (353%positive, 5%nat); (354%positive, 5%nat); (355%positive, 5%nat); (356%positive, 5%nat); (357%positive, 4%nat); (358%positive, 8%nat); (359%positive, 5%nat); (360%positive, 5%nat); (361%positive, 5%nat); (362%positive, 5%nat); (363%positive, 4%nat); (364%positive, 4%nat); (365%positive, 13%nat); (366%positive, 4%nat); (367%positive, 4%nat); (368%positive, 4%nat); (369%positive, 4%nat); (370%positive, 4%nat); (371%positive, 4%nat); (372%positive, 4%nat); (373%positive, 4%nat); (374%positive, 4%nat); (375%positive, 4%nat); (376%positive, 21%nat); (377%positive, 4%nat); (378%positive, 4%nat); (379%positive, 4%nat); (380%positive, 4%nat); (381%positive, 4%nat); (382%positive, 13%nat); (383%positive, 4%nat); (384%positive, 4%nat); (385%positive, 4%nat); (386%positive, 4%nat); (387%positive, 9%nat); (388%positive, 4%nat); (389%positive, 4%nat); (390%positive, 4%nat); (391%positive, 4%nat); (392%positive, 4%nat); (393%positive, 4%nat); (394%positive, 14%nat); (395%positive, 4%nat); (396%positive, 4%nat); (397%positive, 4%nat); (398%positive, 4%nat); (399%positive, 8%nat); (400%positive, 4%nat); (401%positive, 4%nat); (402%positive, 4%nat); (403%positive, 4%nat)].
Definition max_rank : nat := 41%nat.
