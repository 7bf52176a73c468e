(** What the properties about package logic say, independently of the model's helpers. *)

From Coq Require Import String NArith List Bool Arith Sorted.
From Verif Require Import Base Utf8 PegSyntax Ast Logic LogicWords.
Import ListNotations.
Open Scope string_scope.
Open Scope list_scope.
Open Scope nat_scope.

(** ** Argument positions

    An argument list is a list of values, each with the position its linking word names, or
    0 if it has none.  Positions count from 1, indices into the result from 0. *)
Section Order.
Context {A : Type}.

(** The last argument linked to the position of index [p] is [x]. *)
Definition linked_at (a : list (A * nat)) (p : nat) (x : A) : Prop :=
  exists pre post, a = pre ++ (x, S p) :: post /\ forall y, ~ In (y, S p) post.

Definition is_linked (a : list (A * nat)) (p : nat) : bool := existsb (fun y => snd y =? S p) a.

(** The unlinked arguments in order. *)
Definition unlinked (a : list (A * nat)) : list A := map fst (filter (fun y => snd y =? 0) a).

(** What stands at the positions that no argument is linked to, from left to right. *)
Definition free_slots (a : list (A * nat)) (l : list (option A)) : list (option A) :=
  map snd (filter (fun ix => negb (is_linked a (fst ix))) (combine (seq 0 (length l)) l)).

End Order.

(** ** Names

    unicode.ToUpper on a to z. *)
Definition plain_upper (U : unicode) : Prop :=
  forall r, (97 <= r <= 122)%N -> u_upper U r = (r - 32)%N.

(** Every predicate of the tree is = or ≺ or has a name that starts with a letter from a
    to x.  (No Toaq word starts with y or z.) *)
Definition toaq_names (h : heap) : Prop :=
  forall name, In (CPred name) h ->
    name = "=" \/ name = "≺" \/ exists c rest, name = String c rest /\ (97 <= byte_of c <= 120)%N.

(** ** Numbers *)

(** The number of a Binding or Variable. *)
Definition number (h : heap) (r : ref) : option nat :=
  match nth_error h r with
  | Some (CBinding _ n _ _ _) | Some (CVariable n _ _) => Some n
  | _ => None
  end.
(** A node that introduces a variable: a Binding or a Variable without Def. *)
Definition introduces (h : heap) (r : ref) : bool :=
  match nth_error h r with
  | Some (CBinding _ _ _ _ _) | Some (CVariable _ None _) => true
  | _ => false
  end.
(** [r] is a Variable whose Def is [d]. *)
Definition refers (h : heap) (r d : ref) : Prop :=
  exists n f, nth_error h r = Some (CVariable n (Some d) f).
(** [d] is before [r] in the list. *)
Definition before (l : list ref) (d r : ref) : Prop :=
  exists pre mid post, l = pre ++ d :: mid ++ r :: post.
(** The numbers of the Variables of a list. *)
Definition variable_numbers (h : heap) (l : list ref) : list nat :=
  flat_map (fun r => match nth_error h r with Some (CVariable n _ _) => [n] | _ => [] end) l.
(** A cell without its number. *)
Definition unnumbered (c : cell) : cell :=
  match c with
  | CBinding q _ f rs sc => CBinding q 0 f rs sc
  | CVariable _ d f => CVariable 0 d f
  | _ => c
  end.

(** ** Sentences and connected arguments *)

Definition sentence_item (n : node) : Prop :=
  (exists j s d, n = NSentence j s d) \/ (exists f t w l r, n = NCoP CSentence f t w l r).
Definition has_sentence (d : list node) : Prop := exists n, In n d /\ sentence_item n.

(** An argument connected by ru, ra or ri, with or without a linking word. *)
Definition connected_argument (U : unicode) (n : node) : Prop :=
  exists f t w l r, n = NCoP CArgument f t w l r /\ has_text U w "roi" = false.
Definition connected_term (U : unicode) (n : node) : Prop :=
  connected_argument U n \/ exists w m, n = NLinked w m /\ connected_argument U m.

(** ** What Interpret supports

    Every connective is ru, ra or ri, ru between sentences, and also roi between
    arguments; no predicate has the prefix mu; the quantifiers, the linking words and the
    words of groups PO and MI are those of the grammar.  Quotes, parentheses and other
    parts that are not interpreted do not matter. *)
Definition one_of (U : unicode) (l : list string) (w : word) : bool := existsb (has_text U w) l.
Definition connects (U : unicode) (k : copkind) (w : word) : bool :=
  match k with
  | CSentence => has_text U w "ru"
  | CArgument => one_of U ["ru"; "ra"; "ri"; "roi"] w
  | _ => one_of U ["ru"; "ra"; "ri"] w
  end.
Fixpoint supported (U : unicode) (n : node) : bool :=
  match n with
  | NSentence _ st _ => supported U st
  | NPrenex ts _ | NTerms ts => forallb (supported U) ts
  | NPrenexStmt p st => supported U p && supported U st
  | NPredication p ts _ => supported U p && match ts with None => true | Some l => forallb (supported U) l end
  | NPrefixed _ _ => false
  | NSerial l r => supported U l && supported U r
  | NMi mi _ _ => one_of U ["mi"; "shu"] mi
  | NPo po _ a => one_of U ["po"; "jei"] po && supported U a
  | NLinked go a => one_of U ["fi"; "go"; "cu"; "ta"] go && supported U a
  | NPredArg _ q p rel =>
      match q with None => true | Some w => one_of U ["ke"; "ja"; "sa"; "tu"; "sia"; "hi"] w end &&
      supported U p && match rel with None => true | Some x => supported U x end
  | NPredRel p | NAdverb p | NPredContent p => supported U p
  | NPrep p a => supported U p && supported U a
  | NCoP k _ _ ru l r => connects U k ru && supported U l && supported U r
  | NLU _ _ st => supported U st
  | _ => true
  end.
