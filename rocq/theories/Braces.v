(** Model of /repo/ast/braces.go.

    The io.Writer is the strings.Builder of BracesString, which never fails; what is
    written to it is the result.  An empty Terms of a Prenex or of a Fragment, and an
    empty Discourse, are taken to be non-nil slices. *)

From Coq Require Import String List Bool Arith.
From Verif Require Import Base PegSyntax Ast.
Import ListNotations.
Open Scope string_scope.

(** braces.go:10-13. *)
Definition open_brace (cur : nat) : string := substring cur 1 "({[<".
Definition close_brace (cur : nat) : string := substring cur 1 ")}]>".

(** An argument of braceKids: [None] if it is left out, otherwise how it is printed at a
    nesting depth. *)
Definition kid : Type := option (nat -> string).

(** braces.go:198-213: a Space is replaced by its modifier, repeatedly; whether that ends
    in nil.  Printing a Space prints its modifier (146-147), so the Space itself can stand
    for its replacement otherwise. *)
Fixpoint only_space (n : node) : bool :=
  match n with
  | NSpace (Wd _ _ _ None) => true
  | NSpace (Wd _ _ _ (Some m)) => only_space m
  | _ => false
  end.

(** braces.go:224-239: the printed elements with a space between two of them. *)
Fixpoint join (l : list string) : string :=
  match l with
  | [] => ""
  | [x] => x
  | x :: l' => x ++ " " ++ join l'
  end.

Fixpoint given (l : list kid) : list (nat -> string) :=
  match l with
  | [] => []
  | None :: l' => given l'
  | Some f :: l' => f :: given l'
  end.

(** braces.go:175-246, braceKids. *)
Definition brace_kids (cur : nat) (xs : list kid) : string :=
  let nodes := given xs in
  if (1 <? List.length nodes)%nat then
    open_brace cur ++ join (map (fun f => f ((cur + 1) mod 4)%nat) nodes) ++ close_brace cur
  else join (map (fun f => f cur) nodes).

Definition text_kid (t : string) : kid := Some (fun _ => t).

Section Kids.
Variable f : nat -> node -> string.
Variable g : nat -> word -> string.
(** A Node, a *Word that is not nil, and either that may be nil. *)
Definition node_kid (n : node) : kid := if only_space n then None else Some (fun c => f c n).
Definition word_kid (w : word) : kid := Some (fun c => g c w).
Definition node_kid_opt (o : option node) : kid := match o with None => None | Some n => node_kid n end.
Definition word_kid_opt (o : option word) : kid := match o with None => None | Some w => word_kid w end.
(** &n.Discourse or a non-nil Terms. *)
Definition list_kid (l : list node) : kid := Some (fun c => brace_kids c (map node_kid l)).
Definition list_kid_opt (o : option (list node)) : kid := match o with None => None | Some l => list_kid l end.
End Kids.

(** braces.go:28-167, braces. *)
Fixpoint braces (cur : nat) (n : node) {struct n} : string :=
  match n with
  | NText ld d => brace_kids cur [node_kid_opt braces ld; list_kid braces d]           (* 33-34 *)
  | NDiscourse d => brace_kids cur (map (node_kid braces) d)                            (* 36-41 *)
  | NSentence je st da =>                                                               (* 43-44 *)
      brace_kids cur [word_kid_opt braces_word je; node_kid braces st; word_kid_opt braces_word da]
  | NPrenex ts bi => brace_kids cur [list_kid braces ts; word_kid braces_word bi]       (* 49-50 *)
  | NPrenexStmt p st => brace_kids cur [node_kid braces p; node_kid braces st]          (* 52-53 *)
  | NPredication p ts na =>                                                             (* 55-56 *)
      brace_kids cur [node_kid braces p; list_kid_opt braces ts; word_kid_opt braces_word na]
  | NPrefixed mu p => brace_kids cur [word_kid braces_word mu; node_kid braces p]       (* 61-62 *)
  | NSerial l r => brace_kids cur [node_kid braces l; node_kid braces r]                (* 64-65 *)
  | NWordPredicate w => braces_word cur w                                               (* 67-68 *)
  | NMi mi ga p =>                                                                      (* 70-71 *)
      brace_kids cur [word_kid braces_word mi; node_kid braces p; word_kid_opt braces_word ga]
  | NPo po ga a =>                                                                      (* 73-74 *)
      brace_kids cur [word_kid braces_word po; node_kid braces a; word_kid_opt braces_word ga]
  | NMo mo teo d =>                                                                     (* 76-77 *)
      brace_kids cur [word_kid braces_word mo; list_kid braces d; word_kid braces_word teo]
  | NLinked go a => brace_kids cur [word_kid braces_word go; node_kid braces a]         (* 85-86 *)
  | NTerms ts => brace_kids cur (map (node_kid braces) ts)                              (* 88-93 *)
  | NPredArg f q p rel =>                                                               (* 98-99 *)
      brace_kids cur [word_kid_opt braces_word f; word_kid_opt braces_word q; node_kid braces p; node_kid_opt braces rel]
  | NPredRel p => braces cur p                                                          (* 104-105 *)
  | NAdverb p => braces cur p                                                           (* 113-114 *)
  | NPrep p a => brace_kids cur [node_kid braces p; node_kid braces a]                  (* 119-120 *)
  | NPredContent p => braces cur p                                                      (* 125-126 *)
  | NParen kio ki d =>                                                                  (* 134-135 *)
      brace_kids cur [word_kid braces_word kio; list_kid braces d; word_kid braces_word ki]
  | NIncidental ju st => brace_kids cur [word_kid braces_word ju; node_kid braces st]   (* 137-138 *)
  | NVocative hu a => brace_kids cur [word_kid braces_word hu; node_kid braces a]       (* 140-141 *)
  | NInterjection w => braces_word cur w                                                (* 143-144 *)
  | NSpace (Wd _ _ _ m) => match m with None => "" | Some x => braces cur x end         (* 146-147 *)
  | NCoP _ to0 to1 ru l r =>                                                            (* 149-153, and 46-47 etc. *)
      match to0 with
      | None => brace_kids cur [node_kid braces l; word_kid braces_word ru; node_kid braces r]
      | Some _ =>
          brace_kids cur [word_kid_opt braces_word to0; word_kid braces_word ru; node_kid braces l;
                          word_kid_opt braces_word to1; node_kid braces r]
      end
  | NLU _ lu st => brace_kids cur [word_kid braces_word lu; node_kid braces st]         (* 155-156, and 79-80 etc. *)
  | NWord w => braces_word cur w
  end
(* the case of *Word, braces.go:158-162 *)
with braces_word (cur : nat) (w : word) {struct w} : string :=
  match w with
  | Wd t _ _ m => brace_kids cur [text_kid t; node_kid_opt braces m]
  end.

(** braces.go:19-26, BracesString, for a node that is not nil. *)
Definition braces_string (n : node) : string := braces 0 n.
