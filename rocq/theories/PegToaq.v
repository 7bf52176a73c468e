(** The grammar of toaq.go as a finite map, and the tables used for termination. *)

From Coq Require Import String NArith ZArith PArith List FMapPositive Bool.
From Verif Require Import Base Utf8 PegSyntax Grammar Peg.
Import ListNotations.

Definition of_list {A} (l : list (positive * A)) : PositiveMap.t A :=
  fold_right (fun p m => PositiveMap.add (fst p) (snd p) m) (PositiveMap.empty A) l.

Definition rule_map : PositiveMap.t rule := Eval vm_compute in of_list rule_list.
Definition rank_map : PositiveMap.t nat := Eval vm_compute in of_list rank_list.
Definition nullable_map : PositiveMap.t bool :=
  Eval vm_compute in of_list (map (fun r => (r, true)) nullable_list).

(** The rules of toaq.go, by number. *)
Definition toaq (r : positive) : rule :=
  match PositiveMap.find r rule_map with Some x => x | None => no_rule end.

Definition toaq_rank (r : positive) : nat :=
  match PositiveMap.find r rank_map with Some n => n | None => 0 end.

Definition toaq_nullable (r : positive) : bool :=
  match PositiveMap.find r nullable_map with Some b => b | None => false end.

(** Recursion depth sufficient for every rule at [start] (PegFacts.v). *)
Definition enough (text : string) (start : nat) (r : positive) : nat :=
  (String.length text - start) * S max_rank + toaq_rank r + 1.
