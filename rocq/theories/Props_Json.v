(** C59: The client reads what the server computed.

    [answers] is the map that server.go makes of a request (AppSpec.v), [served] the body of the
    answer, which encoding/json makes of the map (Json.v), and [json_object] what RFC 8259 makes of the
    body (JsonRead.v). *)

From Coq Require Import String Ascii NArith List.
From Verif Require Import Base Utf8 LogicWords LogicCases App AppSpec Pretty Json JsonRead JsonApi Parser LogicWords.
Import ListNotations.
Open Scope string_scope.
Open Scope list_scope.

Theorem C59_client :
  forall is_punct U input body, served is_punct U input (Ok body) ->
  (exists a, answers is_punct U input (Ok (RFull a)) /\
    json_object body = Some [("AST", pretty_value (node_value (a_ast a))); ("Braces", a_braces a); ("Logic", a_logic a); ("Parse", a_parse a); ("Text", a_text a)]) \/
  (exists m, answers is_punct U input (Ok (RError m)) /\ json_object body = Some [("Error", of_runes (runes m))]).
Proof. exact client. Qed.
Print Assumptions C59_client.

Theorem C59_sent :
  forall is_punct U input r, answers is_punct U input (Ok r) -> exists body, served is_punct U input (Ok body).
Proof. exact sent. Qed.
Print Assumptions C59_sent.

(** An error is read as it is if it is UTF-8, and only then. *)
Theorem C59_error :
  forall is_punct U input m body, answers is_punct U input (Ok (RError m)) -> served is_punct U input (Ok body) ->
  (json_object body = Some [("Error", m)] <-> exists l, m = of_runes l).
Proof. exact client_exact. Qed.
Print Assumptions C59_error.

(** So is an error in a request in ASCII. *)
Theorem C59_ascii :
  forall is_punct U input m body, (forall c, In c (list_ascii_of_string input) -> (byte_of c < 128)%N) ->
  answers is_punct U input (Ok (RError m)) -> served is_punct U input (Ok body) -> json_object body = Some [("Error", m)].
Proof. exact client_ascii. Qed.
Print Assumptions C59_ascii.

(** But not all errors in requests in UTF-8. *)
Theorem C59_error_refuted :
  exists input m body, (exists l, input = of_runes l) /\ answers ascii_punct ascii_unicode input (Ok (RError m)) /\
    served ascii_punct ascii_unicode input (Ok body) /\ json_object body <> Some [("Error", m)].
Proof. exists cut_text. exact cut_message. Qed.
Print Assumptions C59_error_refuted.

(** A text with a quotation. *)
Example C59_case : exists body l, served ascii_punct ascii_unicode "mi? hui? ga ji/ da" (Ok body) /\ json_object body = Some l /\
  In ("Braces", "({[mỉ hủı ga] jí} da)") l /\ In ("Logic", "[℩𝐽 : ji(𝐽)] chua(‹hủı›, 𝐽).") l.
Proof. exact json_case. Qed.
(** An error in ASCII. *)
Example C59_ascii_case : exists body, served ascii_punct ascii_unicode "gi" (Ok body) /\
  json_object body = Some [("Error", ":1.3: want ◌̂, [5\^], [qQ], [aA], [uU], [oO], [eE], ◌́, [/2], ◌̃, [~7], ◌̀, [\\6], ◌̉, [?4], ◌̌, ◌̆, or [V3]; got EOF")].
Proof. exact ascii_case. Qed.
