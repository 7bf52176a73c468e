(** What the server and the bot answer. *)

From Coq Require Import String NArith List.
From Verif Require Import Base Ast Parser LogicWords LogicString LogicSpec LogicApi App.
Import ListNotations.

(** The result of a program that needs a bound, without the bound. *)
Definition finally {A} (f : nat -> res A) (r : res A) : Prop :=
  r <> NoFuel /\ exists fuel, forall fuel', fuel <= fuel' -> f fuel' = r.

(** [t] contains [s]. *)
Definition contains (s t : string) : Prop := exists a b, t = (a ++ s ++ b)%string.

Section Spec.
Variable is_punct : N -> bool.
Variable U : unicode.
(** What comes of a POST with the body [input]: a response, or a panic. *)
Definition answers (input : string) : res response -> Prop := finally (fun fuel => post is_punct U fuel input).
(** What comes of a message to the bot: [Ok None] if it says nothing. *)
Definition replies (m : message) : res (option string) -> Prop := finally (fun fuel => on_message is_punct U fuel m).

(** The field Logic of the answer to a text with the items [d], or a panic: "fragment" if
    there is no sentence, the logical form, the message of a panic of Interpret, or
    "fragment" again if Interpret fails in another way. *)
Inductive logic_shown (d : list node) : res string -> Prop :=
  | LFragment : ~ has_sentence d -> logic_shown d (Ok "fragment"%string)
  | LForm t r : outcome U d (Ok (Some t)) -> finally (fun fuel => pretty_string U fuel (Some t)) r -> logic_shown d r
  | LBug m : outcome U d (Panic (PString m)) -> logic_shown d (Ok ("bug: " ++ m)%string)
  | LLost : outcome U d (Panic PRuntime) -> logic_shown d (Ok "fragment"%string).

(** The text that the bot is asked to parse. *)
Definition asked (m : message) (x : string) : Prop :=
  exists rest, m_text (fix_bridge m) = (".miu" ++ rest)%string /\ x = trim_space U (trim_space U rest).
(** What the bot says about the items [d]. *)
Definition said (d : list node) (s : string) : Prop :=
  (~ has_sentence d /\ s = "fragment"%string) \/
  exists t, outcome U d (Ok (Some t)) /\ finally (fun fuel => pretty_string U fuel (Some t)) (Ok s).

End Spec.

(** Followed by a newline unless empty. *)
Definition with_newline (s : string) : string := if String.eqb s "" then s else (s ++ newline)%string.

(** The nick of the bridge. *)
Definition bridge : string := "ToaqBridgeBot".
