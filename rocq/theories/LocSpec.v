(** Vocabulary for source locations. *)

From Coq Require Import String NArith List.
From Verif Require Import Utf8.
Import ListNotations.

(** [for i, r := range s]: byte offset and rune of each rune of a string whose
    first byte has offset [off]. *)
Fixpoint range_fuel (fuel : nat) (off : nat) (s : string) : list (nat * N) :=
  match fuel, s with
  | S f, String _ _ =>
    let (r, w) := decode_rune s in (off, r) :: range_fuel f (off + w) (sdrop w s)
  | _, _ => []
  end.
Definition range (s : string) : list (nat * N) := range_fuel (String.length s) 0 s.

(** The runes that start before offset [b]. *)
Definition runes_before (s : string) (b : nat) : list N :=
  map snd (filter (fun x => Nat.ltb (fst x) b) (range s)).

(** The position of the end of [rs]: line and column. *)
Definition line_of (rs : list N) : nat := S (count_occ N.eq_dec rs 10%N).
Definition column_is (rs : list N) (c : nat) : Prop :=
  exists before after,
    rs = before ++ after /\ ~ In 10%N after /\
    (before = [] \/ exists b, before = b ++ [10%N]) /\
    c = S (length after).
