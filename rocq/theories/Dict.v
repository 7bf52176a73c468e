(** Model of /repo/dict/dict.go, function Load, after the JSON response has been
    decoded.  Not modelled: the HTTP request and the JSON decoder. *)

From Coq Require Import String List Bool ZArith.
From Verif Require Import Base Utf8 Tone.
Import ListNotations.
Open Scope string_scope.
Open Scope list_scope.

(** dict.go:16-25, Word. *)
Record dword : Type := DWord {
  dw_word : string;
  dw_def : string;
  dw_by : string;
  dw_score : Z
}.

(** dict.go:35-39, the decoded response; the two pointers may be nil. *)
Record response : Type := Response {
  success : bool;
  entries : option (list dword);
  error : option string
}.

(** A Go map with string keys: the most recent assignment is at the front. *)
Definition words : Type := list (string * dword).

(** The (value, error) pair returned by Load. *)
Inductive loaded : Type :=
| LErr (msg : string)
| LMap (m : words).

(** dict.go:49, the normalised spelling; [to_lower] is strings.ToLower. *)
Definition normal (to_lower : string -> string) (e : dword) : string :=
  to_lower (strip (dw_word e)).

(** dict.go:49-50, one iteration of the loop. *)
Definition store (to_lower : string -> string) (ws : words) (e : dword) : words :=
  let k := normal to_lower e in
  (k, DWord k (dw_def e) (dw_by e) (dw_score e)) :: ws.

(** dict.go:43-52.  The dereferences at lines 44 and 46 panic on nil. *)
Definition load (to_lower : string -> string) (r : response) : res loaded :=
  if negb (success r) then
    match error r with
    | None => Panic PRuntime
    | Some msg => Ok (LErr ("Toadua returned error: " ++ msg)%string)
    end
  else
    match entries r with
    | None => Panic PRuntime
    | Some es => Ok (LMap (fold_left (store to_lower) es []))
    end.
