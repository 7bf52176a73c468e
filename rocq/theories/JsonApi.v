(** The client reads what the server computed. *)

From Coq Require Import String Ascii NArith List Bool Arith Lia.
From Verif Require Import Base Utf8 Utf8Facts PegSyntax Peg TreeSpec Ast AstInd AstSorts AstApi VisitSpec Braces Logic LogicWords LogicSpec LogicString LogicApi Parser ParserFacts App AppSpec AppFacts AppApi Pretty
  Json JsonRead JsonFacts Utf8Valid Utf8Shown HeapText ErrText.
From Verif Require Simplify.
Import ListNotations.
Open Scope string_scope.
Open Scope list_scope.
Open Scope nat_scope.

(** The body that is sent to the client. *)
Definition served (is_punct : N -> bool) (U : unicode) (input : string) : res string -> Prop := finally (fun fuel => answer is_punct U fuel input).

Section Api.
Variable is_punct : N -> bool.
Variable U : unicode.

Lemma served_encode input r : answers is_punct U input (Ok r) -> served is_punct U input (Ok (json_encode (members r))).
Proof.
  intros [_ [n A]]. split; [discriminate|]. exists n. intros k K. unfold answer. rewrite (A k K). reflexivity.
Qed.
Lemma served_body input r body : answers is_punct U input (Ok r) -> served is_punct U input (Ok body) -> body = json_encode (members r).
Proof. intros A B. apply served_encode in A. assert (E := finally_fun _ _ _ A B). congruence. Qed.
Lemma served_some input body : served is_punct U input (Ok body) -> exists r, answers is_punct U input (Ok r).
Proof.
  intros [_ [n A]]. specialize (A n (le_n n)). unfold answer in A. destruct (post is_punct U n input) as [r|q|] eqn:P; try discriminate A.
  exists r. exact (answers_at is_punct U input n _ P ltac:(discriminate)).
Qed.
Lemma outcome_utf8 d t : (forall n, In n d -> clear_words (words n)) -> LogicApi.outcome U d t ->
  match t with Ok (Some (_, h)) => named h | Panic (PString m) => utf8 m | _ => True end.
Proof.
  intros C [_ [n O]]. rewrite <- (O n (le_n n)). apply interpret_utf8, C.
Qed.
Lemma logic_utf8 d l : (forall n, In n d -> clear_words (words n)) -> logic_shown U d (Ok l) -> utf8 l.
Proof.
  intros C L. remember (Ok l) as r eqn:E. destruct L as [F|t r O F|m O|O]; subst.
  - injection E as <-. lit "fragment".
  - assert (N := outcome_utf8 _ _ C O). destruct t as [r h]. destruct F as [_ [n F]]. exact (print_utf8 U n r h N l (F n (le_n n))).
  - injection E as <-. assert (V := outcome_utf8 _ _ C O). refine (utf8_app "bug: " m _ V). lit "bug: ".
  - injection E as <-. lit "fragment".
Qed.
Lemma keys_read l : Forall (fun m => utf8 (fst m) /\ utf8 (snd m)) l -> map both l = l.
Proof. induction 1 as [|[k v] l [K V] F IH]; [reflexivity|]. cbn [map fst snd] in *. rewrite IH. f_equal. unfold both. cbn [fst snd]. apply shown_utf8 in K, V. now rewrite K, V. Qed.

Theorem client_full input a body : answers is_punct U input (Ok (RFull a)) -> served is_punct U input (Ok body) ->
  json_object body = Some [("AST", pretty_value (node_value (a_ast a))); ("Braces", a_braces a); ("Logic", a_logic a); ("Parse", a_parse a); ("Text", a_text a)].
Proof.
  intros A B. rewrite (served_body _ _ _ A B), object_read. cbn [members]. f_equal. apply keys_read. apply post_full in A. destruct A as (t & lead & d & l & T & X & L & ->).
  cbn [a_ast a_braces a_logic a_parse a_text].
  assert (W := text_utf8 is_punct input _ _ (RNew is_punct input) X). assert (P := tree_proper is_punct input _ _ (RNew is_punct input) T).
  destruct (got_text is_punct input _ _ (RNew is_punct input) X) as (_ & _ & _ & _ & So).
  repeat apply Forall_cons; try apply Forall_nil; cbn [fst snd]; (split; [match goal with |- utf8 ?s => (lit s) end|]).
  - apply (proj1 node_value_utf8 _ So W). apply utf8_newline.
  - apply (proj1 braces_utf8 _ W).
  - apply (logic_utf8 d); [|exact L]. intros n I w J. apply W. cbn [words]. apply in_or_app. right. apply in_flat_map. eauto.
  - apply pretty_node_utf8; [exact P|apply utf8_nil].
  - apply utf8_concat, Forall_forall. intros s I. apply in_map_iff in I. destruct I as (w & <- & I). exact (W w I).
Qed.
Theorem client_error input m body : answers is_punct U input (Ok (RError m)) -> served is_punct U input (Ok body) ->
  json_object body = Some [("Error", of_runes (runes m))] /\ (json_object body = Some [("Error", m)] <-> utf8 m).
Proof.
  intros A B. rewrite (served_body _ _ _ A B), object_read. cbn [members map]. unfold both. cbn [fst snd]. assert (K : JsonFacts.shown "Error" = "Error") by (vm_compute; reflexivity). rewrite K.
  split; [reflexivity|]. rewrite <- shown_utf8. split; [intros E; injection E as E; exact E|intros ->; reflexivity].
Qed.
Lemma ascii_utf8 s : (forall c, In c (list_ascii_of_string s) -> (byte_of c < 128)%N) -> utf8 s.
Proof.
  induction s as [|c s IH]; intros E; [apply utf8_nil|]. exact (utf8_app (String c "") s (utf8_ascii c (E c (or_introl eq_refl))) (IH (fun x X => E x (or_intror X)))).
Qed.
Lemma in_sdrop c : forall s o, In c (list_ascii_of_string (sdrop o s)) -> In c (list_ascii_of_string s).
Proof. induction s as [|x s IH]; intros [|o] I; try exact I. right. exact (IH o I). Qed.
Lemma in_stake c : forall s k, In c (list_ascii_of_string (stake k s)) -> In c (list_ascii_of_string s).
Proof. induction s as [|x s IH]; intros [|k] I; try exact I; [destruct I|]. destruct I as [->|I]; [left; reflexivity|right; exact (IH k I)]. Qed.
Theorem client_ascii input m body : (forall c, In c (list_ascii_of_string input) -> (byte_of c < 128)%N) ->
  answers is_punct U input (Ok (RError m)) -> served is_punct U input (Ok body) -> json_object body = Some [("Error", m)].
Proof.
  intros C A B. apply (client_error _ _ _ A B). apply post_error in A. destruct A as (e & T & ->). apply (message_utf8 is_punct input e T). intros o. apply ascii_utf8.
  intros c I. apply C. exact (in_sdrop _ _ _ (in_stake _ _ _ I)).
Qed.
Theorem client input body : served is_punct U input (Ok body) ->
  (exists a, answers is_punct U input (Ok (RFull a)) /\
    json_object body = Some [("AST", pretty_value (node_value (a_ast a))); ("Braces", a_braces a); ("Logic", a_logic a); ("Parse", a_parse a); ("Text", a_text a)]) \/
  (exists m, answers is_punct U input (Ok (RError m)) /\ json_object body = Some [("Error", of_runes (runes m))]).
Proof.
  intros B. destruct (served_some _ _ B) as [[m|a] A]; [right; exists m|left; exists a]; (split; [exact A|]); [exact (proj1 (client_error _ _ _ A B))|exact (client_full _ _ _ A B)].
Qed.
Theorem sent input r : answers is_punct U input (Ok r) -> exists body, served is_punct U input (Ok body).
Proof. intros A. exists (json_encode (members r)). exact (served_encode _ _ A). Qed.
Theorem client_exact input m body : answers is_punct U input (Ok (RError m)) -> served is_punct U input (Ok body) ->
  (json_object body = Some [("Error", m)] <-> exists l, m = of_runes l).
Proof. intros A B. exact (proj2 (client_error _ _ _ A B)). Qed.
End Api.
Lemma served_at is_punct U input fuel body : answer is_punct U fuel input = Ok body -> served is_punct U input (Ok body).
Proof.
  unfold answer. intros E. destruct (post is_punct U fuel input) as [r|q|] eqn:P; try discriminate E. cbn [bind] in E. injection E as <-.
  apply served_encode. exact (answers_at _ _ _ _ _ P ltac:(discriminate)).
Qed.
Lemma json_case : exists body l, served ascii_punct ascii_unicode "mi? hui? ga ji/ da" (Ok body) /\ json_object body = Some l /\
  In ("Braces", "({[mỉ hủı ga] jí} da)") l /\ In ("Logic", "[℩𝐽 : ji(𝐽)] chua(‹hủı›, 𝐽).") l.
Proof.
  destruct (answer ascii_punct ascii_unicode 40 "mi? hui? ga ji/ da") as [body| |] eqn:E; try (vm_compute in E; discriminate E).
  assert (S := served_at _ _ _ _ _ E). exists body. destruct (json_object body) as [l|] eqn:J; [exists l|vm_compute in E; injection E as <-; vm_compute in J; discriminate J].
  split; [exact S|]. split; [reflexivity|]. clear S. vm_compute in E. injection E as <-. vm_compute in J. injection J as <-. split; [right; left; reflexivity|right; right; left; reflexivity].
Qed.
Lemma ascii_case : exists body, served ascii_punct ascii_unicode "gi" (Ok body) /\
  json_object body = Some [("Error", ":1.3: want ◌̂, [5\^], [qQ], [aA], [uU], [oO], [eE], ◌́, [/2], ◌̃, [~7], ◌̀, [\\6], ◌̉, [?4], ◌̌, ◌̆, or [V3]; got EOF")].
Proof.
  destruct (answer ascii_punct ascii_unicode 40 "gi") as [body| |] eqn:E; try (vm_compute in E; discriminate E).
  assert (S := served_at _ _ _ _ _ E). exists body. split; [exact S|]. clear S. vm_compute in E. injection E as <-. vm_compute. reflexivity.
Qed.

(** A message that the client does not get: an error at the first character of ten bytes of which the last is half a character. *)
Definition cut_text : string := "x" ++ "éééééé".
Lemma cut_message : exists m body, utf8 cut_text /\ answers ascii_punct ascii_unicode cut_text (Ok (RError m)) /\ served ascii_punct ascii_unicode cut_text (Ok body) /\
  json_object body <> Some [("Error", m)].
Proof.
  destruct (post ascii_punct ascii_unicode 0 cut_text) as [[m|]| |] eqn:E; try (vm_compute in E; discriminate E).
  assert (A := answers_at _ _ _ _ _ E ltac:(discriminate)). exists m, (json_encode (members (RError m))). split; [exists (runes cut_text); vm_compute; reflexivity|]. split; [exact A|].
  split; [exact (served_encode _ _ _ _ A)|]. vm_compute in E. injection E as <-. vm_compute. discriminate.
Qed.
