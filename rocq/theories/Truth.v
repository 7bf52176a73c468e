(** What formulas say in a structure, to compare a discourse with what simplification makes of
    it.  Nothing here refers to the code; formulas are those of Clauses.v. *)

From Coq Require Import String NArith List Bool Arith.
From Verif Require Import Base PegSyntax Ast AstSorts Logic LogicWords LogicSpec ScopeSpec Meaning Clauses.
Import ListNotations.
Open Scope string_scope.
Open Scope list_scope.
Open Scope nat_scope.

(** ** Structures

    A structure has objects and worlds and says which predicates hold of which arguments,
    some of them missing; what predicates, connections and quantifiers are otherwise is left
    open. *)
Record structure : Type := Structure {
  object : Type;
  world : Type;
  is_named : string -> list (option object) -> world -> Prop;
  is_object : object -> list (option object) -> world -> Prop;
  is_serial : (list (option object) -> world -> Prop) -> (list (option object) -> world -> Prop) -> list (option object) -> world -> Prop;
  is_clause_of : (world -> Prop) -> list (option object) -> world -> Prop;
  the_quote : string -> bool -> object;
  the_clause : (world -> Prop) -> object;
  the_several : list object -> object;
  connected : conn -> Prop -> Prop -> Prop;
  bound_by : quant -> bool -> (object -> world -> Prop) -> world -> Prop;
  limited_by : quant -> bool -> (object -> world -> Prop) -> (object -> world -> Prop) -> world -> Prop
}.

(** "=" is identity; a plurality in a plurality is its members; clauses that hold in the same
    worlds are the same, and connections and quantifiers depend on nothing else; the one thing
    that is [c], and all things that are [c], is [c]. *)
Record lawful (M : structure) : Prop := Lawful {
  law_equal : forall a b w, is_named M "=" [Some a; Some b] w <-> a = b;
  law_several : forall l m k, the_several M (l ++ the_several M m :: k) = the_several M (l ++ m ++ k);
  law_clause : forall P Q, (forall w, P w <-> Q w) -> the_clause M P = the_clause M Q;
  law_clause_of : forall P Q, (forall w, P w <-> Q w) -> forall l w, is_clause_of M P l w <-> is_clause_of M Q l w;
  law_connected : forall c P P' Q Q', (P <-> P') -> (Q <-> Q') -> (connected M c P Q <-> connected M c P' Q');
  law_bound : forall q f G G', (forall d w, G d w <-> G' d w) -> forall w, bound_by M q f G w <-> bound_by M q f G' w;
  law_limited : forall q f R R' G G', (forall d w, R d w <-> R' d w) -> (forall d w, G d w <-> G' d w) ->
    forall w, limited_by M q f R G w <-> limited_by M q f R' G' w;
  law_only : forall q f c R G, q = QThe \/ q = QAll -> (forall d w, R d w <-> d = c) ->
    forall w, limited_by M q f R G w <-> G c w
}.

(** No argument is missing. *)
Fixpoint whole (l : row) : bool := match l with Nil => true | Gap _ => false | Item _ l => whole l end.

(** ** Truth *)

Section Truth.
Variable M : structure.

(** What variables stand for. *)
Definition assignment : Type := nat -> object M.
Definition at_value (e : assignment) (x : nat) (d : object M) : assignment := fun y => if y =? x then d else e y.

Fixpoint property_holds (e : assignment) (p : property) : list (option (object M)) -> world M -> Prop :=
  match p with
  | Named s => is_named M s
  | Unnamed v => is_object M (e (var_number v))
  | Serial p q => is_serial M (property_holds e p) (property_holds e q)
  end.

(** Giving lambdas their arguments. *)
Section Applied.
Context (f : assignment -> form -> world M -> Prop).
Fixpoint applied (k : nat) (l : list (option (object M))) (e : assignment) (A : form) {struct A} : world M -> Prop :=
  match k, A, l with
  | S k', Binds _ x _ G, Some d :: l' => applied k' l' (at_value e x d) G
  | _, _, _ => f e A
  end.
End Applied.

(** An abstraction with as many arguments as lambdas holds if its body does; with a different
    number of arguments, or with missing ones, it can hold of anything. *)
Fixpoint truth (e : assignment) (F : form) {struct F} : world M -> Prop :=
  match F with
  | Says (Simple p) l => property_holds e p (objects e l)
  | Says (Abstract A) l =>
      if (params A =? 0) || negb (whole l && (given_args l =? params A)) then is_clause_of M (truth e A) (objects e l)
      else applied truth (params A) (objects e l) e A
  | Joined c F G => fun w => connected M c (truth e F w) (truth e G w)
  | Binds q x f G => bound_by M q f (fun d => truth (at_value e x d) G)
  | Limits q x f R G => limited_by M q f (fun d => truth (at_value e x d) R) (fun d => truth (at_value e x d) G)
  end
with denotes (e : assignment) (a : term) {struct a} : object M :=
  match a with
  | Var v => e (var_number v)
  | Quoted s full => the_quote M s full
  | That F => the_clause M (truth e F)
  | Several l => the_several M (members e l)
  end
with objects (e : assignment) (l : row) {struct l} : list (option (object M)) :=
  match l with
  | Nil => []
  | Gap l => None :: objects e l
  | Item a l => Some (denotes e a) :: objects e l
  end
with members (e : assignment) (l : row) {struct l} : list (object M) :=
  match l with
  | Nil => []
  | Gap l => members e l
  | Item a l => denotes e a :: members e l
  end.
End Truth.

(** Two formulas say the same. *)
Definition equivalent (F G : form) : Prop :=
  forall M, lawful M -> forall (e : assignment M) w, truth M e F w <-> truth M e G w.

(** ** Formulas whose simplification says the same *)

Definition without (x : nat) (l : list nat) : list nat := filter (fun y => negb (y =? x)) l.

(** The variables that occur outside the scope of what binds them. *)
Fixpoint loose (F : form) : list nat :=
  match F with
  | Says p l => loose_r l ++ loose_p p
  | Joined _ F G => loose F ++ loose G
  | Binds _ x _ G => without x (loose G)
  | Limits _ x _ R G => without x (loose R ++ loose G)
  end
with loose_p (p : prop) : list nat :=
  match p with Simple p => numbers_s p | Abstract F => loose F end
with loose_t (a : term) : list nat :=
  match a with
  | Var v => [var_number v]
  | Quoted _ _ => []
  | That F => loose F
  | Several l => loose_r l
  end
with loose_r (l : row) : list nat :=
  match l with
  | Nil => []
  | Gap l => loose_r l
  | Item a l => loose_t a ++ loose_r l
  end.

(** The variables that are bound. *)
Fixpoint binders (F : form) : list nat :=
  match F with
  | Says p l => binders_r l ++ binders_p p
  | Joined _ F G => binders F ++ binders G
  | Binds _ x _ G => x :: binders G
  | Limits _ x _ R G => x :: binders R ++ binders G
  end
with binders_p (p : prop) : list nat :=
  match p with Simple _ => [] | Abstract F => binders F end
with binders_t (a : term) : list nat :=
  match a with
  | Var _ | Quoted _ _ => []
  | That F => binders F
  | Several l => binders_r l
  end
with binders_r (l : row) : list nat :=
  match l with
  | Nil => []
  | Gap l => binders_r l
  | Item a l => binders_t a ++ binders_r l
  end.

Definition among (l : list nat) (x : nat) : bool := existsb (Nat.eqb x) l.
Definition apart (l m : list nat) : bool := forallb (fun x => negb (among m x)) l.
Fixpoint distinct (l : list nat) : bool :=
  match l with [] => true | x :: l => negb (among l x) && distinct l end.

(** Formulas that do not come to an equation. *)
Fixpoint calm (F : form) : bool :=
  match F with
  | Says (Simple (Named s)) _ => negb (String.eqb s "=")
  | Says (Simple _) _ => true
  | Says (Abstract _) _ => false
  | Joined _ _ _ | Binds _ _ _ _ => true
  | Limits _ _ _ _ G => calm G
  end.
(** If the restriction [R] comes to an equation, it is one for the variable [z]; the other
    side is about none of [z] and [zs]. *)
Fixpoint own (z : nat) (zs : list nat) (R : form) : bool :=
  match R with
  | Says (Simple (Named s)) (Item a (Item b Nil)) =>
      negb (String.eqb s "=") || match a with Var (Bound y _) => (y =? z) && apart (z :: zs) (loose_t b) | _ => false end
  | Says (Simple _) _ => true
  | Says (Abstract (Binds QLambda y _ G)) l =>
      match l with Item (Var (Bound x _)) Nil => (x =? z) && own y (z :: zs) G | _ => false end
  | Says (Abstract _) _ => true
  | Joined _ _ _ => true
  | Binds _ _ _ _ => true
  | Limits _ x _ R G => calm G || apart (z :: zs) (x :: loose R ++ binders R) && own z zs G
  end.

(** Restrictions fix no variable but their own, lambdas are just those in front of
    abstractions, one each, are not given their arguments with others before them missing and
    are not used as predicates, and variables are not part of serial predicates. *)
Fixpoint tame (F : form) : bool :=
  match F with
  | Says p l => tame_p p && tame_r l &&
      match p with
      | Abstract (Binds QLambda y _ G) =>
          negb (among (as_predicates G) y) && whole l
      | _ => true
      end
  | Joined _ F G => tame F && tame G
  | Binds q _ _ G => match q with QLambda => false | _ => true end && tame G
  | Limits q x _ R G => tame R && tame G && match q with QThe | QAll => own x [] R | _ => true end
  end
with tame_p (p : prop) : bool :=
  match p with
  | Simple (Serial p q) => match numbers_s (Serial p q) with [] => true | _ => false end
  | Simple _ => true
  | Abstract (Binds QLambda _ _ G) => tame G
  | Abstract F => tame F
  end
with tame_t (a : term) : bool :=
  match a with
  | Var _ | Quoted _ _ => true
  | That F => tame F
  | Several l => tame_r l
  end
with tame_r (l : row) : bool :=
  match l with
  | Nil => true
  | Gap l => tame_r l
  | Item a l => tame_t a && tame_r l
  end.

(** Moreover, no two bindings bind the same variable, and variables occur only in the scope of
    what binds them. *)
Definition regular (F : form) : bool := tame F && distinct (binders F) && apart (loose F) (binders F).

(** What a discourse says before it is simplified. *)
Definition literally (U : unicode) (ol : list (N * N)) (d : list node) (F : form) : Prop :=
  exists G t,
    says_items U ol (Told 0 [] []) None d (Some G) t /\
    F = fill None (fold_right (fun b G => Limits QThe (fst b) false (snd b) G) G (n_outer t)).
