(** The meaning of sentences with clauses, defined on their syntax without a heap.

    Formulas like those of Meaning.v, with two additions: a predicate can be an abstraction,
    that is a formula with a lambda in front, and an argument can be a quotation, a clause or
    a plurality. *)

From Coq Require Import String NArith List Bool Arith.
From Verif Require Import Base PegSyntax Ast AstSorts Logic LogicWords LogicSpec ScopeSpec Meaning.
Import ListNotations.
Open Scope string_scope.
Open Scope list_scope.
Open Scope nat_scope.

(** ** Formulas *)

Inductive form : Type :=
  | Says (p : prop) (l : row)
  | Joined (c : conn) (F G : form)
  | Binds (q : quant) (x : nat) (focus : bool) (G : form)
  | Limits (q : quant) (x : nat) (focus : bool) (R G : form)
with prop : Type :=
  | Simple (p : property)
  | Abstract (F : form)
with term : Type :=
  | Var (v : thing)
  | Quoted (text : string) (full : bool)
  | That (F : form)
  | Several (l : row)
(** Arguments, of which some may be missing. *)
with row : Type :=
  | Nil
  | Gap (l : row)
  | Item (a : term) (l : row).

Fixpoint row_of (l : list (option thing)) : row :=
  match l with
  | [] => Nil
  | None :: l => Gap (row_of l)
  | Some v :: l => Item (Var v) (row_of l)
  end.

(** ** What precedes the interpretation of a statement *)

(** A predicate is a property or a connection of predicates. *)
Inductive predic : Type :=
  | Single (p : prop)
  | Pair (c : conn) (l r : predic).
Fixpoint said_of (P : predic) (l : row) : form :=
  match P with
  | Single p => Says p l
  | Pair c P Q => Joined c (said_of P l) (said_of Q l)
  end.
(** The predicate as in Meaning.v, if it has no abstraction. *)
Fixpoint plainly (P : predic) : option predicate :=
  match P with
  | Single (Simple p) => Some (One p)
  | Single (Abstract _) => None
  | Pair c P Q =>
      match plainly P, plainly Q with Some p, Some q => Some (Two c p q) | _, _ => None end
  end.
Fixpoint of_plain (p : predicate) : predic :=
  match p with
  | One p => Single (Simple p)
  | Two c p q => Pair c (of_plain p) (of_plain q)
  end.

(** The variables that occur, where bound. *)
Definition of_var (v : thing) : list nat := match v with Bound x _ => [x] | Free _ => [] end.
Fixpoint occurring (F : form) : list nat :=
  match F with
  | Says p l => occurring_p p ++ occurring_r l
  | Joined _ F G => occurring F ++ occurring G
  | Binds _ _ _ G => occurring G
  | Limits _ _ _ R G => occurring R ++ occurring G
  end
with occurring_p (p : prop) : list nat :=
  match p with
  | Simple p => of_property p
  | Abstract F => occurring F
  end
with occurring_t (a : term) : list nat :=
  match a with
  | Var v => of_var v
  | Quoted _ _ => []
  | That F => occurring F
  | Several l => occurring_r l
  end
with occurring_r (l : row) : list nat :=
  match l with
  | Nil => []
  | Gap l => occurring_r l
  | Item a l => occurring_t a ++ occurring_r l
  end.

(** What the words of a part refer to: the variables that words name, hoa, and all the
    variables that are bound around the part or before it in a row of roi, each with whether
    it counts as free: those bound by a definite description do not. *)
Record scene : Type := Scene { v_vars : list (string * nat); v_hoa : option nat; v_bound : list (nat * bool) }.
Definition scene0 : scene := Scene [] None [].
Definition in_scope (g : scene) (x : nat) (counts : bool) : scene := Scene (v_vars g) (v_hoa g) ((x, counts) :: v_bound g).
Definition naming (g : scene) (v : string) (x : nat) (counts : bool) : scene :=
  Scene ((v, x) :: v_vars g) (v_hoa g) ((x, counts) :: v_bound g).
Definition about (g : scene) (x : nat) : scene := Scene (v_vars g) (Some x) (v_bound g).
Definition counted (q : quant) : bool := match q with QThe => false | _ => true end.
Definition free_in (g : scene) (F : form) : bool :=
  existsb (fun b => (snd b : bool) && existsb (Nat.eqb (fst b)) (occurring F)) (v_bound g).

(** What has been said so far, as in Meaning.v. *)
Record told : Type := Told { n_next : nat; n_lifted : list (nat * nat); n_outer : list (nat * form) }.
Definition up_to (t : told) (i : nat) : told := Told i (n_lifted t) (n_outer t).
Definition bound_outside (t : told) (x : nat) (R : form) : told := Told (n_next t) (n_lifted t) (n_outer t ++ [(x, R)]).
Definition lifted_as (t : told) (k x : nat) : told := Told (n_next t) ((k, x) :: n_lifted t) (n_outer t).
Definition seen_at (t : told) (k : nat) : option nat := option_map snd (find (fun e => fst e =? k) (n_lifted t)).

Definition binding_of : Type := quant * nat * option form.
Definition wrapped (b : option binding_of) (focus : bool) (F : form) : form :=
  match b with
  | None => F
  | Some (q, x, None) => Binds q x focus F
  | Some (q, x, Some R) => Limits q x focus R F
  end.

Definition named (s : string) (l : row) : form := Says (Simple (Named s)) l.
Definition some_of (y : nat) (v : thing) : form := named "≺" (Item (Var (Bound y false)) (Item (Var v) Nil)).
(** The property of being [a]: a lambda and "=". *)
Definition being (y : nat) (a : term) : prop :=
  Abstract (Binds QLambda y false (named "=" (Item (Var (Bound y false)) (Item a Nil)))).
(** [x] is the clause [F]. *)
Definition is_clause (x y : nat) (F : form) : form := Says (being y (That F)) (Item (Var (Bound x false)) Nil).
Definition and_also (F : form) (o : option form) : form := match o with None => F | Some G => Joined KAnd F G end.

(** What a preposition relates its argument to: a variable, or the rest of a statement. *)
Inductive related : Type :=
  | ToVar (x : nat)
  | ToRest (a : list (thing * nat)) (st : node) (keep : bool) (ts : list node).
Definition with_rest (a : related) (ts : list node) : related :=
  match a with ToVar x => ToVar x | ToRest b st keep _ => ToRest b st keep ts end.

Definition is_prep (n : node) : bool := match n with NPrep _ _ | NCoP CPreposition _ _ _ _ _ => true | _ => false end.
Definition is_adverb (n : node) : bool := match n with NAdverb _ | NCoP CAdverb _ _ _ _ _ => true | _ => false end.

Section Clauses.
Variable U : unicode.
Variable ol : list (N * N).

Definition po_of (w : word) : option string := listed U [("po", "raq"); ("jei", "=")] w.

(** [states g t a n F t'], [front g t a st keep ts F ts' t'], [stands g t f q p rel b x g' t'],
    [limits] and [says_clause] are [statement], [terms], [argument], [relative] and [clause]
    of Meaning.v.

    [predicates g t n P t']: the predicate [n] is [P].

    [refers g t n b v g' t']: the argument [n], not connected except by roi, stands for [v],
    to be bound by [b].  [both_left g t x l r F g' t'] and [both_right g t x v r F g' t']: that
    [x] is [l] and [r] together (or [v] and [r]).

    [po_says g t s x n F t']: [x] has the relation [s] to the argument [n].

    [relates g t n a F ts t'], [relates_by g t p a n F ts t']: [a] has the relation of the
    preposition [n] (of [p]) to its argument (to [n]).  [modifies g t n x F t']: [x] has the
    property of the adverb [n]. *)
Inductive states : scene -> told -> list (thing * nat) -> node -> form -> told -> Prop :=
  | SPrenex g t a ts bi st F ts' t' :
      front g t a st (has_text U bi "pa") ts F ts' t' ->
      states g t a (NPrenexStmt (NPrenex ts bi) st) F t'
  | STerms g t a p ts na F ts' t' :
      front g t a (NPredication p None na) true ts F ts' t' ->
      states g t a (NPredication p (Some ts) na) F t'
  | SBare g t a p na P t' l :
      predicates g t p P t' -> placed a l ->
      states g t a (NPredication p None na) (said_of P (row_of l)) t'
  | SJoined g t a f m ru l r c F G t1 t2 :
      connects_as U ru = Some c -> states g t a l F t1 -> states g t1 a r G t2 ->
      states g t a (NCoP CStatement f m ru l r) (Joined c F G) t2
with predicates : scene -> told -> node -> predic -> told -> Prop :=
  | PVariable g t w v x i :
      is_variable U ol (NWordPredicate w) = Some v -> looked_up (v_vars g) v (n_next t) = (x, i) ->
      predicates g t (NWordPredicate w) (Single (Simple (Unnamed x))) (up_to t i)
  | PHoaUnbound g t w :
      is_variable U ol (NWordPredicate w) = None -> is_hoa U (NWordPredicate w) = true -> v_hoa g = None ->
      predicates g t (NWordPredicate w) (Single (Simple (Unnamed (Free (n_next t))))) (up_to t (S (n_next t)))
  | PHoa g t w x :
      is_variable U ol (NWordPredicate w) = None -> is_hoa U (NWordPredicate w) = true -> v_hoa g = Some x ->
      predicates g t (NWordPredicate w) (Single (Simple (Unnamed (Bound x false)))) t
  | PNamed g t w :
      is_variable U ol (NWordPredicate w) = None -> is_hoa U (NWordPredicate w) = false ->
      predicates g t (NWordPredicate w) (Single (Simple (Named (word_pred U (w_t w))))) t
  | PSerial g t l r P Q p q t1 t2 :
      predicates g t l P t1 -> predicates g t1 r Q t2 -> plainly P = Some p -> plainly Q = Some q ->
      predicates g t (NSerial l r) (of_plain (serial p q)) t2
  | PShu g t shu ga phrase :
      has_text U shu "shu" = true -> has_text U shu "mi" = false ->
      predicates g t (NMi shu ga phrase) (Single (being (n_next t) (Quoted (to_string U phrase) false))) (up_to t (S (n_next t)))
  | PMo g t mo teo d :
      predicates g t (NMo mo teo d) (Single (being (n_next t) (Quoted (to_string U (NDiscourse d)) true))) (up_to t (S (n_next t)))
  | PPo g t po ga arg s F t' :
      po_of po = Some s ->
      po_says (in_scope g (n_next t) true) (up_to t (S (n_next t))) s (n_next t) arg F t' ->
      predicates g t (NPo po ga arg) (Single (Abstract (Binds QLambda (n_next t) false F))) t'
  | PLu g t lu st F t' :
      has_text U lu "lu" = true ->
      states (about (in_scope g (n_next t) true) (n_next t)) (up_to t (S (n_next t))) [] st F t' ->
      predicates g t (NLU LPredicate lu st) (Single (Abstract (Binds QLambda (n_next t) false F))) t'
  | PLi g t li st F t' :
      has_text U li "lu" = false -> states g t [] st F t' ->
      predicates g t (NLU LPredicate li st) (Single (Abstract F)) t'
  | PContent g t p F t' :
      states g t [] p F t' ->
      predicates g t (NPredContent p) (Single (being (n_next t') (That F))) (up_to t' (S (n_next t')))
  | PLa g t la st F t' :
      states g t [] st F t' ->
      predicates g t (NLU LContent la st) (Single (being (n_next t') (That F))) (up_to t' (S (n_next t')))
  | PJoined g t k f m ru l r c P Q t1 t2 :
      k = CPredicate \/ k = CContent ->
      connects_as U ru = Some c -> predicates g t l P t1 -> predicates g t1 r Q t2 ->
      predicates g t (NCoP k f m ru l r) (Pair c P Q) t2
with front : scene -> told -> list (thing * nat) -> node -> bool -> list node -> form -> list node -> told -> Prop :=
  | FNone g t a st (keep : bool) F t' :
      states g t (if keep then a else []) st F t' ->
      front g t a st keep [] F [] t'
  | FSet g t a st (keep : bool) f m ru l r rest c F G ts1 ts2 t1 t2 :
      connects_as U ru = Some c ->
      front g t a st keep (l ++ rest) F ts1 t1 ->
      front g t1 a st keep (r ++ rest) G ts2 t2 ->
      front g t a st keep (NCoP CTermSet f m ru (NTerms l) (NTerms r) :: rest) (Joined c F G)
        (NCoP CTermSet f m ru (NTerms l) (NTerms r) :: rest) t2
  | FJoined g t a st (keep : bool) f m ru l r rest c F G ts1 ts2 t1 t2 :
      has_text U ru "roi" = false -> connects_as U ru = Some c ->
      front g t a st keep (l :: rest) F ts1 t1 ->
      front g t1 a st keep (r :: tl ts1) G ts2 t2 ->
      front g t a st keep (NCoP CArgument f m ru l r :: rest) (Joined c F G) ts2 t2
  | FArgument g t a st (keep : bool) n rest b x g' F ts1 t1 t2 :
      refers g t n b x g' t1 ->
      front g' t1 (a ++ [(x, 0)]) st keep rest F ts1 t2 ->
      front g t a st keep (n :: rest)
        (wrapped b (match n with NPredArg f _ _ _ => given f && negb keep | _ => false end) F) (n :: ts1) t2
  | FLinked g t a st (keep : bool) go n rest b x g' F ts1 t1 t2 pos :
      refers g t n b x g' t1 ->
      links_to U go = Some pos ->
      front g' t1 (a ++ [(x, pos)]) st keep rest F ts1 t2 ->
      front g t a st keep (NLinked go n :: rest) (wrapped b false F) (NLinked go n :: ts1) t2
  | FLinkedJoined g t a st (keep : bool) go f m ru l r rest c F G ts1 ts2 t1 t2 :
      has_text U ru "roi" = false -> connects_as U ru = Some c ->
      front g t a st keep (NLinked go l :: rest) F ts1 t1 ->
      front g t1 a st keep (NLinked go r :: tl ts1) G ts2 t2 ->
      front g t a st keep (NLinked go (NCoP CArgument f m ru l r) :: rest) (Joined c F G) ts2 t2
  | FPrep g t a st (keep : bool) n rest F ts1 t1 G ts2 t2 :
      is_prep n = true ->
      front g t a st keep rest F ts1 t1 -> free_in g F = false ->
      relates g (bound_outside (up_to t1 (S (S (n_next t1)))) (n_next t1) (is_clause (n_next t1) (S (n_next t1)) F)) n (ToVar (n_next t1)) G ts2 t2 ->
      front g t a st keep (n :: rest) G (n :: ts1) t2
  | FPrepFree g t a st (keep : bool) n rest F ts1 t1 G ts2 t2 :
      is_prep n = true ->
      front g t a st keep rest F ts1 t1 -> free_in g F = true ->
      relates g t1 n (ToRest a st keep ts1) G ts2 t2 ->
      front g t a st keep (n :: rest) G (n :: ts2) t2
  | FAdverb g t a st (keep : bool) n rest F ts1 t1 G t2 :
      is_adverb n = true ->
      front g t a st keep rest F ts1 t1 -> free_in g F = false ->
      modifies g (bound_outside (up_to t1 (S (S (n_next t1)))) (n_next t1) (is_clause (n_next t1) (S (n_next t1)) F)) n (n_next t1) G t2 ->
      front g t a st keep (n :: rest) G (n :: ts1) t2
  | FAdverbFree g t a st (keep : bool) n rest F ts1 t1 G t2 :
      is_adverb n = true ->
      front g t a st keep rest F ts1 t1 -> free_in g F = true ->
      modifies (in_scope g (n_next t1) true) (up_to t1 (S (S (n_next t1)))) n (n_next t1) G t2 ->
      front g t a st keep (n :: rest)
        (Limits QAll (n_next t1) false (is_clause (n_next t1) (S (n_next t1)) F) G) (n :: ts1) t2
with po_says : scene -> told -> string -> nat -> node -> form -> told -> Prop :=
  | PoOne g t s x n b v g' t' :
      refers g t n b v g' t' ->
      po_says g t s x n (wrapped b false (named s (Item (Var (Bound x false)) (Item (Var v) Nil)))) t'
  | PoJoined g t s x f m ru l r c F G t1 t2 :
      has_text U ru "roi" = false -> connects_as U ru = Some c ->
      po_says g t s x l F t1 -> po_says g t1 s x r G t2 ->
      po_says g t s x (NCoP CArgument f m ru l r) (Joined c F G) t2
with relates : scene -> told -> node -> related -> form -> list node -> told -> Prop :=
  | LPrep g t p n a F ts t' : relates_by g t p a n F ts t' -> relates g t (NPrep p n) a F ts t'
  | LJoined g t f m ru l r c a F G ts1 ts2 t1 t2 :
      connects_as U ru = Some c ->
      relates g t l a F ts1 t1 -> relates g t1 r (with_rest a ts1) G ts2 t2 ->
      relates g t (NCoP CPreposition f m ru l r) a (Joined c F G) ts2 t2
with relates_by : scene -> told -> node -> related -> node -> form -> list node -> told -> Prop :=
  | BVar g t p x n b v g' P t1 t2 :
      refers g t n b v g' t1 -> predicates g' t1 p P t2 ->
      relates_by g t p (ToVar x) n (wrapped b false (said_of P (Item (Var (Bound x false)) (Item (Var v) Nil)))) [] t2
  | BRest g t p a st keep ts n b v g' F ts' P t1 t2 t3 :
      refers g t n b v g' t1 ->
      front g' t1 a st keep ts F ts' t2 ->
      predicates (in_scope g' (n_next t2) true) (up_to t2 (S (S (n_next t2)))) p P t3 ->
      relates_by g t p (ToRest a st keep ts) n
        (wrapped b false
          (Limits QAll (n_next t2) false (is_clause (n_next t2) (S (n_next t2)) F)
            (said_of P (Item (Var (Bound (n_next t2) false)) (Item (Var v) Nil))))) ts' t3
  | BJoined g t p a f m ru l r c F G ts1 ts2 t1 t2 :
      has_text U ru "roi" = false -> connects_as U ru = Some c ->
      relates_by g t p a l F ts1 t1 -> relates_by g t1 p (with_rest a ts1) l G ts2 t2 ->
      relates_by g t p a (NCoP CArgument f m ru l r) (Joined c F G) ts2 t2
with modifies : scene -> told -> node -> nat -> form -> told -> Prop :=
  | AAdverb g t p x P t' :
      predicates g t p P t' ->
      modifies g t (NAdverb p) x (said_of P (Item (Var (Bound x false)) Nil)) t'
  | AJoined g t f m ru l r x c F G t1 t2 :
      connects_as U ru = Some c -> modifies g t l x F t1 -> modifies g t1 r x G t2 ->
      modifies g t (NCoP CAdverb f m ru l r) x (Joined c F G) t2
with refers : scene -> told -> node -> option binding_of -> thing -> scene -> told -> Prop :=
  | ROne g t f q p rel b x g' t' :
      stands g t f q p rel b x g' t' -> refers g t (NPredArg f q p rel) b x g' t'
  | RRoi g t f m ru l r R g' t' :
      has_text U ru "roi" = true ->
      both_left (in_scope g (n_next t) false) (up_to t (S (n_next t))) (n_next t) l r R g' t' ->
      refers g t (NCoP CArgument f m ru l r) (Some (QThe, n_next t, Some R)) (Bound (n_next t) false) g' t'
with both_left : scene -> told -> nat -> node -> node -> form -> scene -> told -> Prop :=
  | LOne g t x l r b v F g1 g2 t1 t2 :
      refers g t l b v g1 t1 -> both_right g1 t1 x v r F g2 t2 ->
      both_left g t x l r (wrapped b false F) g2 t2
  | LTwo g t x f m ru l1 l2 r c F G g1 g2 t1 t2 :
      has_text U ru "roi" = false -> connects_as U ru = Some c ->
      both_left g t x l1 r F g1 t1 -> both_left g1 t1 x l2 r G g2 t2 ->
      both_left g t x (NCoP CArgument f m ru l1 l2) r (Joined c F G) g2 t2
with both_right : scene -> told -> nat -> thing -> node -> form -> scene -> told -> Prop :=
  | GOne g t x v r b w g' t' :
      refers g t r b w g' t' ->
      both_right g t x v r
        (wrapped b false
          (named "=" (Item (Var (Bound x false)) (Item (Several (Item (Var v) (Item (Var w) Nil))) Nil)))) g' t'
  | GTwo g t x v f m ru r1 r2 c F G g1 g2 t1 t2 :
      has_text U ru "roi" = false -> connects_as U ru = Some c ->
      both_right g t x v r1 F g1 t1 -> both_right g1 t1 x v r2 G g2 t2 ->
      both_right g t x v (NCoP CArgument f m ru r1 r2) (Joined c F G) g2 t2
with stands : scene -> told -> option word -> option word -> node -> option node ->
    option binding_of -> thing -> scene -> told -> Prop :=
  | ASeen g t f q p rel x :
      seen_at t (place p) = Some x ->
      stands g t f q p rel None (Bound x false) g t
  | AQuantifies g t f w p rel v qq R t' :
      seen_at t (place p) = None -> is_variable U ol p = Some v -> quantifies_as U (Some w) = Some qq ->
      limits (naming g v (n_next t) (counted qq)) (up_to t (S (n_next t))) (n_next t) rel R t' ->
      stands g t f (Some w) p rel (Some (qq, n_next t, R)) (Bound (n_next t) false) (naming g v (n_next t) (counted qq)) t'
  | AVariable' g t f p v x i :
      seen_at t (place p) = None -> is_variable U ol p = Some v ->
      looked_up (v_vars g) v (n_next t) = (x, i) ->
      stands g t f None p None None x g (up_to t i)
  | AVariableLimited g t f p n v x i R t' :
      seen_at t (place p) = None -> is_variable U ol p = Some v ->
      looked_up (v_vars g) v (n_next t) = (x, i) ->
      limits (in_scope g i true) (up_to t (S i)) i (Some n) (Some R) t' ->
      stands g t f None p (Some n) (Some (QAll, i, Some (Joined KAnd (some_of i x) R))) (Bound i false) (in_scope g i true) t'
  | AHoaFree g t f q p rel :
      seen_at t (place p) = None -> is_variable U ol p = None -> is_hoa U p = true -> v_hoa g = None ->
      stands g t f q p rel None (Free (n_next t)) g (up_to t (S (n_next t)))
  | AHoaBound g t f p x :
      seen_at t (place p) = None -> is_variable U ol p = None -> is_hoa U p = true -> v_hoa g = Some x ->
      stands g t f None p None None (Bound x false) g t
  | AHoaLimited g t f q p rel x R t' :
      seen_at t (place p) = None -> is_variable U ol p = None -> is_hoa U p = true -> v_hoa g = Some x ->
      (q <> None \/ rel <> None) ->
      limits (in_scope g (n_next t) true) (up_to t (S (n_next t))) (n_next t) rel R t' ->
      stands g t f q p rel
        (Some (QAll, n_next t, Some (and_also (some_of (n_next t) (Bound x false)) R)))
        (Bound (n_next t) false) (in_scope g (n_next t) true) t'
  | ADescribed g t f q p rel qq P R0 R t1 t' :
      seen_at t (place p) = None -> is_variable U ol p = None -> is_hoa U p = false ->
      quantifies_as U q = Some qq -> qq <> QHi -> qq <> QThe ->
      predicates g (up_to t (S (n_next t))) p P t1 ->
      limits (in_scope g (n_next t) true) t1 (n_next t) rel R0 t' ->
      R = and_also (said_of P (Item (Var (Bound (n_next t) (given f))) Nil)) R0 ->
      stands g t f q p rel (Some (qq, n_next t, Some R)) (Bound (n_next t) (given f)) (in_scope g (n_next t) true) t'
  | ATheFree g t f q p rel P R0 R t1 t' :
      seen_at t (place p) = None -> is_variable U ol p = None -> is_hoa U p = false ->
      quantifies_as U q = Some QThe ->
      predicates g (up_to t (S (n_next t))) p P t1 ->
      limits (in_scope g (n_next t) false) t1 (n_next t) rel R0 t' ->
      R = and_also (said_of P (Item (Var (Bound (n_next t) (given f))) Nil)) R0 ->
      free_in g R = true ->
      stands g t f q p rel (Some (QAll, n_next t, Some R)) (Bound (n_next t) (given f)) (in_scope g (n_next t) true) t'
  | AThe g t f q p rel P R0 R t1 t' :
      seen_at t (place p) = None -> is_variable U ol p = None -> is_hoa U p = false ->
      quantifies_as U q = Some QThe ->
      predicates g (up_to t (S (n_next t))) p P t1 ->
      limits (in_scope g (n_next t) false) t1 (n_next t) rel R0 t' ->
      R = and_also (said_of P (Item (Var (Bound (n_next t) (given f))) Nil)) R0 ->
      free_in g R = false ->
      stands g t f q p rel None (Bound (n_next t) (given f)) g (lifted_as (bound_outside t' (n_next t) R) (place p) (n_next t))
with limits : scene -> told -> nat -> option node -> option form -> told -> Prop :=
  | INothing g t x : limits g t x None None t
  | IClause g t x n F t' : says_clause (about g x) t n F t' -> limits g t x (Some n) (Some F) t'
with says_clause : scene -> told -> node -> form -> told -> Prop :=
  | CPredication' g t st F t' : states g t [] st F t' -> says_clause g t (NPredRel st) F t'
  | CStatement' g t lu st F t' : states g t [] st F t' -> says_clause g t (NLU LRelative lu st) F t'
  | CJoined g t f m ru l r c F G t1 t2 :
      connects_as U ru = Some c -> says_clause g t l F t1 -> says_clause g t1 r G t2 ->
      says_clause g t (NCoP CRelative f m ru l r) (Joined c F G) t2.

Inductive says_sentence : told -> node -> form -> told -> Prop :=
  | ZStatement t je st da F t' : states scene0 t [] st F t' -> says_sentence t (NSentence je st da) F t'
  | ZJoined t f m ru l r F G t1 t2 :
      has_text U ru "ru" = true -> says_sentence t l F t1 -> says_sentence t1 r G t2 ->
      says_sentence t (NCoP CSentence f m ru l r) (Joined KAnd F G) t2.
Inductive says_items : told -> option form -> list node -> option form -> told -> Prop :=
  | ZNone t o : says_items t o [] o t
  | ZSkip t o n d o' t' : ~ sentence_item n -> says_items t o d o' t' -> says_items t o (n :: d) o' t'
  | ZSentence t o n d F t1 o' t2 :
      sentence_item n -> says_sentence t n F t1 ->
      says_items t1 (Some (match o with None => F | Some G => Joined KAnd G F end)) d o' t2 ->
      says_items t o (n :: d) o' t2.

(** ** The sentences concerned *)

(** Words, serial predicates and connections of them. *)
Fixpoint no_abstraction (n : node) : bool :=
  match n with
  | NWordPredicate _ => true
  | NSerial l r => no_abstraction l && no_abstraction r
  | NCoP CPredicate _ _ _ l r => no_abstraction l && no_abstraction r
  | _ => false
  end.
(** Not hi before a predicate, not mi, and nothing but words in serial predicates. *)
Fixpoint covered (n : node) : bool :=
  match n with
  | NSentence _ st _ => covered st
  | NPrenex ts _ | NTerms ts => forallb covered ts
  | NPrenexStmt p st => covered p && covered st
  | NPredication p ts _ => covered p && match ts with None => true | Some l => forallb covered l end
  | NSerial l r => no_abstraction l && no_abstraction r
  | NWordPredicate _ => true
  | NMi mi _ _ => negb (has_text U mi "mi")
  | NMo _ _ _ => true
  | NPo _ _ a => covered a
  | NPredContent p => covered p
  | NLU _ _ st => covered st
  | NLinked _ a => covered a
  | NPrep p a => covered p && covered a
  | NAdverb p => covered p
  | NPredArg _ q p rel =>
      match is_variable U ol p with
      | Some _ => true
      | None =>
          if is_hoa U p then true
          else match q with None => true | Some w => negb (has_text U w "hi") end && covered p
      end &&
      match rel with None => true | Some x => covered x end
  | NPredRel p => covered p
  | NCoP _ _ _ _ l r => covered l && covered r
  | _ => false
  end.

End Clauses.

(** ** Simplification of formulas *)

(** The numbers of the variables that occur. *)
Definition var_number (v : thing) : nat := match v with Bound x _ | Free x => x end.
Fixpoint numbers_s (p : property) : list nat :=
  match p with
  | Named _ => []
  | Unnamed v => [var_number v]
  | Serial p q => numbers_s p ++ numbers_s q
  end.
Fixpoint numbers (F : form) : list nat :=
  match F with
  | Says p l => numbers_p p ++ numbers_r l
  | Joined _ F G => numbers F ++ numbers G
  | Binds _ _ _ G => numbers G
  | Limits _ _ _ R G => numbers R ++ numbers G
  end
with numbers_p (p : prop) : list nat :=
  match p with Simple p => numbers_s p | Abstract F => numbers F end
with numbers_t (a : term) : list nat :=
  match a with
  | Var v => [var_number v]
  | Quoted _ _ => []
  | That F => numbers F
  | Several l => numbers_r l
  end
with numbers_r (l : row) : list nat :=
  match l with
  | Nil => []
  | Gap l => numbers_r l
  | Item a l => numbers_t a ++ numbers_r l
  end.

(** In a restriction, a predicate without arguments is about the variable that is
    restricted, unless it mentions it. *)
Fixpoint fill (b : option nat) (F : form) : form :=
  match F with
  | Says p l =>
      match b, l with
      | Some x, Nil =>
          if existsb (Nat.eqb x) (numbers_p p) then Says (fill_p p) Nil
          else Says (fill_p p) (Item (Var (Bound x false)) Nil)
      | _, _ => Says (fill_p p) (fill_r l)
      end
  | Joined c F G => Joined c (fill b F) (fill b G)
  | Binds q x f G => Binds q x f (fill None G)
  | Limits q x f R G => Limits q x f (fill (Some x) R) (fill None G)
  end
with fill_p (p : prop) : prop :=
  match p with Simple p => Simple p | Abstract F => Abstract (fill None F) end
with fill_t (a : term) : term :=
  match a with
  | Var v => Var v
  | Quoted s f => Quoted s f
  | That F => That (fill None F)
  | Several l => Several (fill_r l)
  end
with fill_r (l : row) : row :=
  match l with
  | Nil => Nil
  | Gap l => Gap (fill_r l)
  | Item a l => Item (fill_t a) (fill_r l)
  end.

(** The variables that are predicates. *)
Fixpoint as_predicates (F : form) : list nat :=
  match F with
  | Says p l => match p with Simple (Unnamed v) => [var_number v] | _ => [] end ++ as_predicates_p p ++ as_predicates_r l
  | Joined _ F G => as_predicates F ++ as_predicates G
  | Binds _ _ _ G => as_predicates G
  | Limits _ _ _ R G => as_predicates R ++ as_predicates G
  end
with as_predicates_p (p : prop) : list nat :=
  match p with Simple p => [] | Abstract F => as_predicates F end
with as_predicates_t (a : term) : list nat :=
  match a with
  | Var _ | Quoted _ _ => []
  | That F => as_predicates F
  | Several l => as_predicates_r l
  end
with as_predicates_r (l : row) : list nat :=
  match l with
  | Nil => []
  | Gap l => as_predicates_r l
  | Item a l => as_predicates_t a ++ as_predicates_r l
  end.

(** The lambdas in front. *)
Fixpoint params (F : form) : nat :=
  match F with
  | Binds QLambda _ _ G => S (params G)
  | _ => 0
  end.
Fixpoint given_args (l : row) : nat :=
  match l with
  | Nil => 0
  | Gap l => given_args l
  | Item _ l => S (given_args l)
  end.
Fixpoint row_app (l m : row) : row :=
  match l with
  | Nil => m
  | Gap l => Gap (row_app l m)
  | Item a l => Item a (row_app l m)
  end.

(** What a variable stands for: nothing, a missing argument, or an argument. *)
Definition values : Type := list (nat * option term).
Definition value (s : values) (n : nat) : option (option term) := option_map snd (find (fun e => fst e =? n) s).
Definition constant (a : term) : bool := match a with Var _ => false | _ => true end.

(** A definite or universal quantifier restricted to what equals a constant fixes its
    variable.  [pv] are the variables that are predicates. *)
Definition fixes (pv : list nat) (q : quant) (R : form) : option (nat * term) :=
  match q, R with
  | (QThe | QAll), Says (Simple (Named s)) (Item a (Item b Nil)) =>
      if String.eqb s "=" then
        match (match a, b with
               | Var v, _ => Some (var_number v, b)
               | _, Var v => Some (var_number v, a)
               | _, _ => None
               end) with
        | Some (x, c) => if existsb (Nat.eqb x) pv then None else if constant c then Some (x, c) else None
        | None => None
        end
      else None
  | _, _ => None
  end.

(** Giving the first [k] lambdas of a formula their arguments. *)
Section Apply.
Context (f : values -> form -> form * values).
Fixpoint apply (k : nat) (l : row) (s : values) (A : form) {struct A} : form * values :=
  match k, A with
  | S k', Binds _ x _ G =>
      match l with
      | Gap l' => apply k' l' ((x, None) :: s) G
      | Item a l' => apply k' l' ((x, Some a) :: s) G
      | Nil => apply k' Nil ((x, None) :: s) G
      end
  | _, _ => f s A
  end.
End Apply.

Section Simplified.
Variable pv : list nat.

(** [simple s F] is [F] where variables that stand for constants are replaced and lambdas
    are applied; [s] are the variables that have a value, which grow from left to right. *)
Fixpoint simple (s : values) (F : form) {struct F} : form * values :=
  match F with
  | Says p l =>
      let (l', s1) := simple_r s l in
      match p with
      | Simple _ => (Says p l', s1)
      | Abstract A =>
          if (params A =? 0) || negb (given_args l' =? params A) then
            let (A', s2) := simple s1 A in (Says (Abstract A') l', s2)
          else
            apply simple (params A) l' s1 A
      end
  | Joined c F G =>
      let (F', s1) := simple s F in
      let (G', s2) := simple s1 G in
      (Joined c F' G', s2)
  | Binds q x f G => let (G', s1) := simple s G in (Binds q x f G', s1)
  | Limits q x f R G =>
      let (R', s1) := simple s R in
      match fixes pv q R' with
      | Some (y, c) => simple ((y, Some c) :: s1) G
      | None => let (G', s2) := simple s1 G in (Limits q x f R' G', s2)
      end
  end
with simple_t (s : values) (a : term) {struct a} : option term * values :=
  match a with
  | Var v => (match value s (var_number v) with Some o => o | None => Some (Var v) end, s)
  | Quoted _ _ => (Some a, s)
  | That F => let (F', s1) := simple s F in (Some (That F'), s1)
  | Several l => let (l', s1) := simple_m s l in (Some (Several l'), s1)
  end
with simple_r (s : values) (l : row) {struct l} : row * values :=
  match l with
  | Nil => (Nil, s)
  | Gap l => let (l', s1) := simple_r s l in (Gap l', s1)
  | Item a l =>
      let (o, s1) := simple_t s a in
      let (l', s2) := simple_r s1 l in
      (match o with None => Gap l' | Some a' => Item a' l' end, s2)
  end
(** Pluralities inside a plurality dissolve, missing members go. *)
with simple_m (s : values) (l : row) {struct l} : row * values :=
  match l with
  | Nil => (Nil, s)
  | Gap l => simple_m s l
  | Item a l =>
      let (o, s1) := simple_t s a in
      let (l', s2) := simple_m s1 l in
      (match o with None => Gap l' | Some (Several m) => row_app m l' | Some a' => Item a' l' end, s2)
  end.
End Simplified.

Definition simplified (F : form) : form := fst (simple (as_predicates F) [] F).

(** The meaning of a discourse. *)
Definition conveys (U : unicode) (ol : list (N * N)) (d : list node) (F : form) : Prop :=
  exists G t,
    says_items U ol (Told 0 [] []) None d (Some G) t /\
    F = simplified (fill None (fold_right (fun b G => Limits QThe (fst b) false (snd b) G) G (n_outer t))).

(** ** Trees

    [shows h bn name r F]: the tree at [r] is the formula [F]; [bn] and [name] tell what the
    bindings and the unbound variables are called.  The numbers in the tree do not matter. *)
Inductive shows_var (h : heap) (bn name : ref -> nat) : ref -> thing -> Prop :=
  | ShowBound r n d f : nth_error h r = Some (CVariable n (Some d) f) -> shows_var h bn name r (Bound (bn d) f)
  | ShowFree r n : nth_error h r = Some (CVariable n None false) -> shows_var h bn name r (Free (name r)).
Inductive shows_property (h : heap) (bn name : ref -> nat) : ref -> property -> Prop :=
  | ShowNamed r s : nth_error h r = Some (CPred s) -> shows_property h bn name r (Named s)
  | ShowUnnamed r v : shows_var h bn name r v -> shows_property h bn name r (Unnamed v)
  | ShowSerial r x y p q :
      nth_error h r = Some (CSerial x y) -> shows_property h bn name x p -> shows_property h bn name y q ->
      shows_property h bn name r (Serial p q).
Inductive shows (h : heap) (bn name : ref -> nat) : ref -> form -> Prop :=
  | ShowSays r x xs p l :
      nth_error h r = Some (CPredication x xs) -> shows_p h bn name x p -> shows_r h bn name xs l ->
      shows h bn name r (Says p l)
  | ShowJoined r c x y F G :
      nth_error h r = Some (CConnection c x y) -> shows h bn name x F -> shows h bn name y G ->
      shows h bn name r (Joined c F G)
  | ShowBinds r q n f s G :
      nth_error h r = Some (CBinding q n f None (Some s)) -> shows h bn name s G ->
      shows h bn name r (Binds q (bn r) f G)
  | ShowLimits r q n f x s R G :
      nth_error h r = Some (CBinding q n f (Some x) (Some s)) -> shows h bn name x R -> shows h bn name s G ->
      shows h bn name r (Limits q (bn r) f R G)
with shows_p (h : heap) (bn name : ref -> nat) : ref -> prop -> Prop :=
  | ShowSimple r p : shows_property h bn name r p -> shows_p h bn name r (Simple p)
  | ShowAbstract r x F : nth_error h r = Some (CAbstraction x) -> shows h bn name x F -> shows_p h bn name r (Abstract F)
with shows_t (h : heap) (bn name : ref -> nat) : ref -> term -> Prop :=
  | ShowVar r v : shows_var h bn name r v -> shows_t h bn name r (Var v)
  | ShowQuoted r s f : nth_error h r = Some (CQuote s f) -> shows_t h bn name r (Quoted s f)
  | ShowThat r x F : nth_error h r = Some (CAbstraction x) -> shows h bn name x F -> shows_t h bn name r (That F)
  | ShowSeveral r xs l : nth_error h r = Some (CPlurality xs) -> shows_r h bn name xs l -> shows_t h bn name r (Several l)
with shows_r (h : heap) (bn name : ref -> nat) : list (option ref) -> row -> Prop :=
  | ShowNil : shows_r h bn name [] Nil
  | ShowGap xs l : shows_r h bn name xs l -> shows_r h bn name (None :: xs) (Gap l)
  | ShowItem x xs a l : shows_t h bn name x a -> shows_r h bn name xs l -> shows_r h bn name (Some x :: xs) (Item a l).
Definition is_binding (h : heap) (r : ref) : bool := match nth_error h r with Some (CBinding _ _ _ _ _) => true | _ => false end.
