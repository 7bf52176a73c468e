(** Properties of the server (C39) and of the bot (C40). *)

From Coq Require Import String NArith List.
From Verif Require Import Base PegSyntax Peg Ast AstSorts Parser ParserSpec VisitSpec Braces Tone LogicWords LogicSpec LogicString LogicApi AstCases LogicCases LogicSafe
  ScopeSpec ScopeCases App AppSpec AppApi AppTotal.
Import ListNotations.
Open Scope string_scope.

(** C39.  False: a text with a number crashes the handler, and one text keeps it busy
    forever. *)
Theorem C39_crash_refuted : answers ascii_punct ascii_unicode "dai4" (Panic PRuntime).
Proof. exact post_crashes. Qed.
Print Assumptions C39_crash_refuted.

Theorem C39_hangs_refuted : exists text, forall r, ~ answers ascii_punct ascii_unicode text r.
Proof. exact post_hangs. Qed.
Print Assumptions C39_hangs_refuted.

(** And Logic is "fragment" for this sentence. *)
Theorem C39_fragment_refuted :
  exists a lead d, answers ascii_punct ascii_unicode "hao? ji/ giV na ru de? " (Ok (RFull a)) /\
    a_ast a = NText lead d /\ a_logic a = "fragment" /\ has_sentence d.
Proof. exact post_says_fragment. Qed.
Print Assumptions C39_fragment_refuted.

(** What holds: the answer is an error exactly when the text does not parse. *)
Theorem C39_error :
  forall is_punct U input m, answers is_punct U input (Ok (RError m)) <->
    exists e, fst (tree is_punct (new_parser input)) = Ok (Err e) /\ m = error_string e.
Proof. exact post_error. Qed.
Print Assumptions C39_error.

(** Otherwise, if there is an answer, it holds these five. *)
Theorem C39_full :
  forall is_punct U input a, answers is_punct U input (Ok (RFull a)) <->
    exists t lead d l,
      fst (tree is_punct (new_parser input)) = Ok (Got (Some t)) /\
      fst (text_of is_punct (new_parser input)) = Ok (Got (Some (NText lead d))) /\
      logic_shown U d (Ok l) /\
      a = Analysis (braces_string (NText lead d)) (NText lead d)
            (String.concat "" (map w_t (words (NText lead d)))) (pretty_node "" t) l.
Proof. exact post_full. Qed.
Print Assumptions C39_full.

(** A panic is a runtime error, never one that the code calls impossible. *)
Theorem C39_panic_partial :
  forall is_punct U input q, answers is_punct U input (Panic q) ->
    q = PRuntime /\ (~ no_digits input \/
      exists lead d t, fst (text_of is_punct (new_parser input)) = Ok (Got (Some (NText lead d))) /\
        outcome U d (Ok (Some t)) /\ finally (fun fuel => pretty_string U fuel (Some t)) (Panic q)).
Proof. exact post_panic. Qed.
Print Assumptions C39_panic_partial.

(** There is none for supported sentences (C30) without digits. *)
Theorem C39_supported_partial :
  forall is_punct U input, no_digits input ->
    (forall lead d, fst (text_of is_punct (new_parser input)) = Ok (Got (Some (NText lead d))) ->
      forall n, In n d -> is_sentence n = true -> well_sorted n = true /\ supported U n = true) ->
    forall q, ~ answers is_punct U input (Panic q).
Proof. exact post_supported. Qed.
Print Assumptions C39_supported_partial.

(** First-order sentences (C30) without digits are always answered, and the answer says
    "fragment" only if there is no sentence. *)
Theorem C39_first_order_partial :
  forall is_punct U input, no_digits input ->
    (forall lead d, fst (text_of is_punct (new_parser input)) = Ok (Got (Some (NText lead d))) ->
      forall n, In n d -> is_sentence n = true ->
        well_sorted n = true /\ supported U n = true /\ first_order U (o_letters diacritic) n = true) ->
    (exists m, answers is_punct U input (Ok (RError m))) \/
    exists a lead d, answers is_punct U input (Ok (RFull a)) /\ a_ast a = NText lead d /\
      (a_logic a = "fragment" <-> ~ has_sentence d).
Proof. exact post_answers. Qed.
Print Assumptions C39_first_order_partial.

(** When Logic is "fragment". *)
Theorem C39_fragment_partial :
  forall is_punct U input a, answers is_punct U input (Ok (RFull a)) ->
    exists lead d, a_ast a = NText lead d /\
      (a_logic a = "fragment" <-> ~ has_sentence d \/ outcome U d (Panic PRuntime)).
Proof. exact post_fragment. Qed.
Print Assumptions C39_fragment_partial.

Example C39_case_error :
  answers ascii_punct ascii_unicode "hao? ji" (Ok (RError
    ":1.8: want ◌̉, [?4], [qQ], [aA], [uU], [oO], [eE], ◌̂, [5\^], ◌́, [/2], ◌̃, [~7], ◌̀, [\\6], ◌̌, ◌̆, or [V3]; got EOF")).
Proof. apply (answers_at _ _ _ 0); [vm_compute; reflexivity|discriminate]. Qed.

Example C39_case_full :
  exists n parse, answers ascii_punct ascii_unicode "hao? ji/ "
    (Ok (RFull (Analysis "(hảo jí)" n "hảo jí " parse "[℩𝐽 : ji(𝐽)] hao(𝐽).")))
    /\ String.prefix "full_text{" parse = true.
Proof.
  do 2 eexists. split; [apply (answers_at _ _ _ 40); [vm_compute; reflexivity|discriminate]|reflexivity].
Qed.

Example C39_case_bug :
  exists a, answers ascii_punct ascii_unicode "gi? ro hui?" (Ok (RFull a)) /\ a_logic a = "bug: impossible: ro".
Proof. eexists. split; [apply (answers_at _ _ _ 40); [vm_compute; reflexivity|discriminate]|reflexivity]. Qed.

(** C40.  False: these messages end the bot. *)
Theorem C40_panic_refuted :
  replies ascii_punct ascii_unicode (Message None ".miu gi? ro hui?") (Panic (PString "impossible: ro")).
Proof. exact bot_panics. Qed.
Print Assumptions C40_panic_refuted.

Theorem C40_crash_refuted : replies ascii_punct ascii_unicode (Message None ".miu dai4") (Panic PRuntime).
Proof. exact bot_crashes. Qed.
Print Assumptions C40_crash_refuted.

(** What holds: it keeps silent unless asked. *)
Theorem C40_silent :
  forall is_punct U m, replies is_punct U m (Ok None) <-> ~ String.prefix ".miu" (m_text (fix_bridge m)) = true.
Proof. exact bot_silent. Qed.
Print Assumptions C40_silent.

(** What it says. *)
Theorem C40_says :
  forall is_punct U m s, replies is_punct U m (Ok (Some s)) <->
    exists x, asked U m x /\
      ((exists e, fst (text_of is_punct (new_parser x)) = Ok (Err e) /\ s = "syntax error " ++ error_string e) \/
       (exists lead d math, fst (text_of is_punct (new_parser x)) = Ok (Got (Some (NText lead d))) /\ said U d math /\
          s = with_newline (braces_string (NText lead d)) ++ math)).
Proof. exact bot_says. Qed.
Print Assumptions C40_says.

(** When it panics. *)
Theorem C40_panic_partial :
  forall is_punct U m q, replies is_punct U m (Panic q) -> exists x, asked U m x /\
    ((q = PRuntime /\ ~ no_digits x) \/
     exists lead d, fst (text_of is_punct (new_parser x)) = Ok (Got (Some (NText lead d))) /\
       (outcome U d (Panic q) \/
        exists t, outcome U d (Ok (Some t)) /\ finally (fun fuel => pretty_string U fuel (Some t)) (Panic q))).
Proof. exact bot_panic. Qed.
Print Assumptions C40_panic_partial.

(** It does not on supported sentences (C30) without digits. *)
Theorem C40_supported_partial :
  forall is_punct U m, (forall x, asked U m x -> no_digits x /\
      forall lead d, fst (text_of is_punct (new_parser x)) = Ok (Got (Some (NText lead d))) ->
      forall n, In n d -> is_sentence n = true -> well_sorted n = true /\ supported U n = true) ->
    forall q, ~ replies is_punct U m (Panic q).
Proof. exact bot_supported. Qed.
Print Assumptions C40_supported_partial.

(** It always answers to first-order sentences without digits. *)
Theorem C40_first_order_partial :
  forall is_punct U m, (forall x, asked U m x -> no_digits x /\
      forall lead d, fst (text_of is_punct (new_parser x)) = Ok (Got (Some (NText lead d))) ->
      forall n, In n d -> is_sentence n = true ->
        well_sorted n = true /\ supported U n = true /\ first_order U (o_letters diacritic) n = true) ->
    exists o, replies is_punct U m (Ok o) /\ (o = None <-> forall x, ~ asked U m x).
Proof. exact bot_answers. Qed.
Print Assumptions C40_first_order_partial.

(** Only messages of the bridge are changed, and only what is before their first ": ", and
    that too, is removed. *)
Theorem C40_bridge :
  forall m, m_from (fix_bridge m) = m_from m /\
    (m_from m <> Some bridge -> m_text (fix_bridge m) = m_text m) /\
    (m_from m = Some bridge ->
      (~ contains ": " (m_text m) /\ m_text (fix_bridge m) = m_text m) \/
      exists name, m_text m = name ++ ": " ++ m_text (fix_bridge m) /\ ~ contains ": " name).
Proof. exact bridge_cut. Qed.
Print Assumptions C40_bridge.

Example C40_case :
  replies ascii_punct ascii_unicode (Message (Some "ToaqBridgeBot") "ann: .miu hao? ji/")
    (Ok (Some ("(hảo jí)" ++ newline ++ "[℩𝐽 : ji(𝐽)] hao(𝐽)."))).
Proof. apply (replies_at _ _ _ 40); [vm_compute; reflexivity|discriminate]. Qed.
Example C40_case_other :
  replies ascii_punct ascii_unicode (Message (Some "ann") "ann: .miu hao? ji/") (Ok None).
Proof. apply (replies_at _ _ _ 40); [vm_compute; reflexivity|discriminate]. Qed.
Example C40_case_supported : exists lead d,
  fst (text_of ascii_punct (new_parser supported_text)) = Ok (Got (Some (NText lead d))) /\ has_sentence d /\
  (forall n, In n d -> is_sentence n = true -> well_sorted n = true /\ supported ascii_unicode n = true) /\
  no_digits supported_text /\ asked ascii_unicode (Message None (".miu " ++ supported_text)) supported_text.
Proof. exact supported_message. Qed.
Example C40_case_first_order : exists lead d,
  fst (text_of ascii_punct (new_parser total_text)) = Ok (Got (Some (NText lead d))) /\ has_sentence d /\
  (forall lead d, fst (text_of ascii_punct (new_parser total_text)) = Ok (Got (Some (NText lead d))) ->
    forall n, In n d -> is_sentence n = true ->
      well_sorted n = true /\ supported ascii_unicode n = true /\ first_order ascii_unicode (o_letters diacritic) n = true) /\
  no_digits total_text /\ asked ascii_unicode (Message None (".miu " ++ total_text)) total_text.
Proof. exact total_message. Qed.
