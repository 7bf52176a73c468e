(** Model of /repo/ast/equal.go. *)

From Coq Require Import String List Bool.
From Verif Require Import Base PegSyntax Ast.
Import ListNotations.

(** x && y, evaluated from left to right. *)
Definition and_then (x y : res bool) : res bool :=
  match x with Ok true => y | _ => x end.
Notation "x &&& y" := (and_then x y) (at level 40, left associativity).

Definition nil_eq {A B} (a : option A) (b : option B) : bool :=
  match a, b with None, None | Some _, Some _ => true | _, _ => false end.

Definition copkind_eq (a b : copkind) : {a = b} + {a <> b}.
Proof. decide equality. Defined.
Definition lukind_eq (a b : lukind) : {a = b} + {a <> b}.
Proof. decide equality. Defined.

Section Lists.
Context {A : Type} (f : A -> option A -> res bool).

(** The loop over two slices of the same length, equal.go:25-30. *)
Fixpoint each (l l' : list A) : res bool :=
  match l, l' with
  | x :: l1, y :: l2 => f x (Some y) &&& each l1 l2
  | _, _ => Ok true
  end.

(** equal.go:20-30 and 99-109. *)
Definition slices (l l' : list A) : res bool :=
  if Nat.eqb (length l) (length l') then each l l' else Ok false.

(** A call with an [a] that may be nil: equal.go:10-12 and 206-208. *)
Definition or_nil (a b : option A) : res bool :=
  match a with
  | None => Ok (nil_eq a b)
  | Some x => f x b
  end.
End Lists.

(** equal.go:9-195, Equal, for [a] not nil; [None] is a nil [b].  The type switch has no
    case for CoP and LUPhrase themselves. *)
Fixpoint equal (a : node) (b : option node) {struct a} : res bool :=
  match a, b with
  | NText ld d, Some (NText ld' d') => or_nil equal ld ld' &&& slices equal d d'          (* 14-18 *)
  | NDiscourse d, Some (NDiscourse d') => slices equal d d'                               (* 20-30 *)
  | NSentence je st da, Some (NSentence je' st' da') =>                                   (* 32-37 *)
      or_nil word_equal je je' &&& or_nil word_equal da da' &&& equal st (Some st')
  | NPrenex ts bi, Some (NPrenex ts' bi') =>                                              (* 43-45 *)
      word_equal bi (Some bi') &&& slices equal ts ts'
  | NPrenexStmt p st, Some (NPrenexStmt p' st') => equal p (Some p') &&& equal st (Some st') (* 47-49 *)
  | NPredication p ts na, Some (NPredication p' ts' na') =>                               (* 51-57 *)
      or_nil word_equal na na' &&& equal p (Some p') &&& Ok (nil_eq ts ts') &&&
      match ts, ts' with
      | Some l, Some l' => slices equal l l'
      | Some l, None => slices equal l []
      | None, _ => Ok true
      end
  | NPrefixed mu p, Some (NPrefixed mu' p') => word_equal mu (Some mu') &&& equal p (Some p') (* 63-65 *)
  | NSerial l r, Some (NSerial l' r') => equal l (Some l') &&& equal r (Some r')          (* 67-69 *)
  | NWordPredicate w, Some (NWordPredicate w') => word_equal w (Some w')                  (* 71-73 *)
  | NMi mi ga p, Some (NMi mi' ga' p') =>                                                 (* 75-77 *)
      word_equal mi (Some mi') &&& or_nil word_equal ga ga' &&& equal p (Some p')
  | NPo po ga a, Some (NPo po' ga' a') =>                                                 (* 79-81 *)
      word_equal po (Some po') &&& or_nil word_equal ga ga' &&& equal a (Some a')
  | NMo mo teo d, Some (NMo mo' teo' d') =>                                               (* 83-85 *)
      word_equal mo (Some mo') &&& word_equal teo (Some teo') &&& slices equal d d'
  | NLinked go a, Some (NLinked go' a') => word_equal go (Some go') &&& equal a (Some a') (* 95-97 *)
  | NTerms ts, Some (NTerms ts') => slices equal ts ts'                                   (* 99-109 *)
  | NPredArg f q p rel, Some (NPredArg f' q' p' rel') =>                                  (* 115-122 *)
      or_nil word_equal f f' &&& or_nil word_equal q q' &&& equal p (Some p') &&&
      Ok (nil_eq rel rel') &&& match rel with None => Ok true | Some r => equal r rel' end
  | NPredRel p, Some (NPredRel p') => equal p (Some p')                                   (* 128-130 *)
  | NAdverb p, Some (NAdverb p') => equal p (Some p')                                     (* 140-142 *)
  | NPrep p a, Some (NPrep p' a') => equal p (Some p') &&& equal a (Some a')              (* 148-150 *)
  | NPredContent p, Some (NPredContent p') => equal p (Some p')                           (* 156-158 *)
  | NParen kio ki d, Some (NParen kio' ki' d') =>                                         (* 168-170 *)
      word_equal ki (Some ki') &&& word_equal kio (Some kio') &&& slices equal d d'
  | NIncidental ju st, Some (NIncidental ju' st') => word_equal ju (Some ju') &&& equal st (Some st') (* 172-174 *)
  | NVocative hu a, Some (NVocative hu' a') => word_equal hu (Some hu') &&& equal a (Some a') (* 176-178 *)
  | NInterjection w, Some (NInterjection w') => word_equal w (Some w')                    (* 180-182 *)
  | NSpace w, Some (NSpace w') => word_equal w (Some w')                                  (* 184-186 *)
  | NCoP CRaw _ _ _ _ _, _ => Panic (PString "unknown node type *ast.CoP")               (* 192-193 *)
  | NCoP k to0 to1 ru l r, Some (NCoP k' to0' to1' ru' l' r') =>                          (* 39-41 and alike, 197-203 *)
      if copkind_eq k k' then
        or_nil word_equal to0 to0' &&& or_nil word_equal to1 to1' &&& word_equal ru (Some ru') &&&
        equal l (Some l') &&& equal r (Some r')
      else Ok false
  | NLU LRaw _ _, _ => Panic (PString "unknown node type *ast.LUPhrase")                  (* 192-193 *)
  | NLU k lu st, Some (NLU k' lu' st') =>                                                 (* 87-89, 132-134, 160-162 *)
      if lukind_eq k k' then word_equal lu (Some lu') &&& equal st (Some st') else Ok false
  | NWord w, Some (NWord w') => word_equal w (Some w')                                    (* 188-190 *)
  | _, _ => Ok false
  end
(* equal.go:205-210, wordEqual, for [a] not nil *)
with word_equal (a : word) (b : option word) {struct a} : res bool :=
  match a, b with
  | Wd t _ _ m, Some (Wd t' _ _ m') => Ok (String.eqb t t') &&& or_nil equal m m'
  | _, None => Ok false
  end.
