(** Model of /repo/vendor/github.com/eaburns/peggy/peg/loc.go. *)

From Coq Require Import String NArith List PeanoNat.
From Verif Require Import Utf8.
Import ListNotations.
Open Scope nat_scope.

(** loc.go:12-17. *)
Record loc : Type := Loc { l_byte : nat; l_rune : nat; l_line : nat; l_column : nat }.

(** loc.go:21-23. *)
Definition loc0 : loc := Loc 0 0 1 1.

(** loc.go:25-32, the body of the loop. *)
Definition loc_step (text : string) (l : loc) : loc :=
  let (r, w) := decode_rune (sdrop (l_byte l) text) in
  if N.eqb r 10
  then Loc (l_byte l + w) (S (l_rune l)) (S (l_line l)) 1
  else Loc (l_byte l + w) (S (l_rune l)) (l_line l) (S (l_column l)).

(** loc.go:24-34: run the loop for at most [n] iterations; None if it has not
    finished by then. *)
Fixpoint location_loop (n : nat) (text : string) (b : nat) (l : loc) : option loc :=
  if l_byte l <? b then
    match n with
    | O => None
    | S n' => location_loop n' text b (loc_step text l)
    end
  else Some l.

(** loc.go:20-35, Location: [Some l] if the call returns [l] within [n] iterations. *)
Definition location_in (n : nat) (text : string) (b : nat) : option loc :=
  location_loop n text b loc0.

(** The same with enough iterations for every offset inside the text. *)
Definition location (text : string) (b : nat) : option loc :=
  location_in b text b.
