(** The meaning of first-order sentences, defined on their syntax without a heap.

    A formula of predicate logic whose variables are numbers.  A restriction narrows what a
    quantifier ranges over. *)

From Coq Require Import String NArith List Bool Arith.
From Verif Require Import Base PegSyntax Ast Logic LogicWords LogicSpec.
Import ListNotations.
Open Scope string_scope.
Open Scope list_scope.
Open Scope nat_scope.

(** ** Formulas *)

(** A variable, perhaps in focus, bound or not. *)
Inductive thing : Type :=
  | Bound (x : nat) (focus : bool)
  | Free (x : nat).
Inductive property : Type :=
  | Named (name : string)
  | Unnamed (t : thing)
  | Serial (l r : property).
Inductive formula : Type :=
  | Holds (p : property) (args : list (option thing))
  | Both (c : conn) (l r : formula)
  | Quantified (q : quant) (x : nat) (focus : bool) (restriction : option formula) (scope : formula).

(** The variables that are not bound inside. *)
Definition of_thing (t : thing) : list nat := match t with Bound x _ => [x] | Free _ => [] end.
Fixpoint of_property (p : property) : list nat :=
  match p with
  | Named _ => []
  | Unnamed t => of_thing t
  | Serial l r => of_property l ++ of_property r
  end.
Definition of_args (l : list (option thing)) : list nat := flat_map (fun o => flat_map of_thing (olist o)) l.
Fixpoint outside (F : formula) : list nat :=
  match F with
  | Holds p l => of_property p ++ of_args l
  | Both _ l r => outside l ++ outside r
  | Quantified _ x _ R G =>
      filter (fun y => negb (y =? x)) (match R with None => [] | Some R => outside R end ++ outside G)
  end.

(** ** Words *)

Section Meaning.
Variable U : unicode.
Variable ol : list (N * N).

Definition listed {A} (table : list (string * A)) (w : word) : option A :=
  option_map snd (find (fun e => has_text U w (fst e)) table).
Definition connects_as (w : word) : option conn := listed [("ru", KAnd); ("ra", KOr); ("ri", KRi)] w.
Definition quantifies_as (o : option word) : option quant :=
  match o with
  | None => Some QThe
  | Some w => listed [("ke", QThe); ("ja", QLambda); ("sa", QSome); ("tu", QEach); ("sia", QNone); ("hi", QHi)] w
  end.
Definition links_to (w : word) : option nat := listed [("fi", 1); ("go", 2); ("cu", 3); ("ta", 4)] w.

(** ** Predicates

    A predicate is a property or a connection of predicates, which is distributed over
    what it is applied to. *)
Inductive predicate : Type :=
  | One (p : property)
  | Two (c : conn) (l r : predicate).
Fixpoint holds (p : predicate) (l : list (option thing)) : formula :=
  match p with
  | One a => Holds a l
  | Two c p1 p2 => Both c (holds p1 l) (holds p2 l)
  end.
Fixpoint serial (p q : predicate) : predicate :=
  match p with
  | Two c p1 p2 => Two c (serial p1 q) (serial p2 q)
  | One a =>
      (fix right (q : predicate) : predicate :=
         match q with
         | Two c q1 q2 => Two c (right q1) (right q2)
         | One b => One (Serial a b)
         end) q
  end.

(** The variable that the last binding of [v] introduced; an unbound one is new each
    time, [i] being the next number. *)
Definition looked_up (vars : list (string * nat)) (v : string) (i : nat) : thing * nat :=
  match find (fun b => String.eqb (fst b) v) vars with
  | Some (_, x) => (Bound x false, i)
  | None => (Free i, S i)
  end.
Fixpoint predicate_of (vars : list (string * nat)) (n : node) (i : nat) : option (predicate * nat) :=
  match n with
  | NWordPredicate w =>
      match is_variable U ol n with
      | Some v => let (t, i') := looked_up vars v i in Some (One (Unnamed t), i')
      | None => Some (One (Named (word_pred U (w_t w))), i)
      end
  | NSerial l r =>
      match predicate_of vars l i with
      | Some (p, i1) => match predicate_of vars r i1 with Some (q, i2) => Some (serial p q, i2) | None => None end
      | None => None
      end
  | NCoP CPredicate _ _ ru l r =>
      match connects_as ru, predicate_of vars l i with
      | Some c, Some (p, i1) => match predicate_of vars r i1 with Some (q, i2) => Some (Two c p q, i2) | None => None end
      | _, _ => None
      end
  | _ => None
  end.

(** The arguments in their places: a linked one where its linking word says, the others in
    order in the places left. *)
Definition placed (a : list (thing * nat)) (l : list (option thing)) : Prop :=
  length l = list_max (length a :: map snd a) /\
  (forall p x, linked_at a p x -> nth_error l p = Some (Some x)) /\
  exists k, free_slots a l = map Some (unlinked a) ++ repeat None k.

(** ** Statements *)

(** What the words of a part refer to: the variables in scope and hoa. *)
Record context : Type := Context { c_vars : list (string * nat); c_hoa : option nat }.
(** What has been said so far: the next number, the arguments (by the offset of their
    predicate) whose variable is bound at the front of the discourse, and those bindings. *)
Record state : Type := State { t_next : nat; t_lifted : list (nat * nat); t_outer : list (nat * formula) }.
Definition with_next (t : state) (i : nat) : state := State i (t_lifted t) (t_outer t).
Definition with_hoa (g : context) (x : nat) : context := Context (c_vars g) (Some x).
Definition with_var (g : context) (v : string) (x : nat) : context := Context ((v, x) :: c_vars g) (c_hoa g).
Definition lifted_at (t : state) (k : nat) : option nat := option_map snd (find (fun e => fst e =? k) (t_lifted t)).

(** The offset of the first word of a predicate. *)
Definition place (p : node) : nat := match node_start p with Ok k => k | _ => 0 end.

Definition wrap (b : option (quant * nat * option formula)) (focus : bool) (F : formula) : formula :=
  match b with None => F | Some (q, x, R) => Quantified q x focus R F end.
Definition among (y : nat) (t : thing) : formula := Holds (Named "≺") [Some (Bound y false); Some t].
Definition given (o : option word) : bool := match o with None => false | Some _ => true end.
(** Some variable of the context occurs in the formula. *)
Definition depends (g : context) (F : formula) : bool :=
  existsb (fun v => existsb (Nat.eqb (snd v)) (outside F)) (c_vars g).

(** [statement g t a n F t']: in the context [g], after what [t] says, the statement [n]
    with the arguments [a] before its own means [F].

    [terms g t a st keep ts F ts' t']: so does the statement [st] preceded by the terms
    [ts], which are arguments of [st] if [keep].  [ts'] is what the terms are afterwards:
    of a pair of connected arguments, the second.

    [argument g t f q p rel b x g' t']: the argument with focus word [f], quantifier [q],
    predicate [p] and relative clause [rel] stands for [x], to be bound by [b] if that is
    not None, and [g'] is the context of what follows it.

    [clause g t n F t']: the relative clause [n] means [F]. *)
Inductive statement : context -> state -> list (thing * nat) -> node -> formula -> state -> Prop :=
  | MPrenex g t a ts bi st F ts' t' :
      terms g t a st (has_text U bi "pa") ts F ts' t' ->
      statement g t a (NPrenexStmt (NPrenex ts bi) st) F t'
  | MTerms g t a p ts na F ts' t' :
      terms g t a (NPredication p None na) true ts F ts' t' ->
      statement g t a (NPredication p (Some ts) na) F t'
  | MBare g t a p na P i l :
      predicate_of (c_vars g) p (t_next t) = Some (P, i) -> placed a l ->
      statement g t a (NPredication p None na) (holds P l) (with_next t i)
  | MConnected g t a f m ru l r c F G t1 t2 :
      connects_as ru = Some c -> statement g t a l F t1 -> statement g t1 a r G t2 ->
      statement g t a (NCoP CStatement f m ru l r) (Both c F G) t2
with terms : context -> state -> list (thing * nat) -> node -> bool -> list node -> formula -> list node -> state -> Prop :=
  | TNone g t a st (keep : bool) F t' :
      statement g t (if keep then a else []) st F t' ->
      terms g t a st keep [] F [] t'
  | TSet g t a st (keep : bool) f m ru l r rest c F G ts1 ts2 t1 t2 :
      connects_as ru = Some c ->
      terms g t a st keep (l ++ rest) F ts1 t1 ->
      terms g t1 a st keep (r ++ rest) G ts2 t2 ->
      terms g t a st keep (NCoP CTermSet f m ru (NTerms l) (NTerms r) :: rest) (Both c F G)
        (NCoP CTermSet f m ru (NTerms l) (NTerms r) :: rest) t2
  | TConnected g t a st (keep : bool) f m ru l r rest c F G ts1 ts2 t1 t2 :
      has_text U ru "roi" = false -> connects_as ru = Some c ->
      terms g t a st keep (l :: rest) F ts1 t1 ->
      terms g t1 a st keep (r :: tl ts1) G ts2 t2 ->
      terms g t a st keep (NCoP CArgument f m ru l r :: rest) (Both c F G) ts2 t2
  | TArgument g t a st (keep : bool) f q p rel rest b x g' F ts1 t1 t2 :
      argument g t f q p rel b x g' t1 ->
      terms g' t1 (a ++ [(x, 0)]) st keep rest F ts1 t2 ->
      terms g t a st keep (NPredArg f q p rel :: rest) (wrap b (given f && negb keep) F) (NPredArg f q p rel :: ts1) t2
  | TLinked g t a st (keep : bool) go f q p rel rest b x g' F ts1 t1 t2 pos :
      argument g t f q p rel b x g' t1 ->
      links_to go = Some pos ->
      terms g' t1 (a ++ [(x, pos)]) st keep rest F ts1 t2 ->
      terms g t a st keep (NLinked go (NPredArg f q p rel) :: rest) (wrap b false F)
        (NLinked go (NPredArg f q p rel) :: ts1) t2
  | TLinkedConnected g t a st (keep : bool) go f m ru l r rest c F G ts1 ts2 t1 t2 :
      has_text U ru "roi" = false -> connects_as ru = Some c ->
      terms g t a st keep (NLinked go l :: rest) F ts1 t1 ->
      terms g t1 a st keep (NLinked go r :: tl ts1) G ts2 t2 ->
      terms g t a st keep (NLinked go (NCoP CArgument f m ru l r) :: rest) (Both c F G) ts2 t2
with argument : context -> state -> option word -> option word -> node -> option node ->
    option (quant * nat * option formula) -> thing -> context -> state -> Prop :=
  | ALifted g t f q p rel x :
      lifted_at t (place p) = Some x ->
      argument g t f q p rel None (Bound x false) g t
  | AQuantified g t f w p rel v qq R t' :
      lifted_at t (place p) = None -> is_variable U ol p = Some v -> quantifies_as (Some w) = Some qq ->
      relative (with_var g v (t_next t)) (with_next t (S (t_next t))) (t_next t) rel R t' ->
      argument g t f (Some w) p rel (Some (qq, t_next t, R)) (Bound (t_next t) false) (with_var g v (t_next t)) t'
  | AVariable g t f p v x i :
      lifted_at t (place p) = None -> is_variable U ol p = Some v ->
      looked_up (c_vars g) v (t_next t) = (x, i) ->
      argument g t f None p None None x g (with_next t i)
  | AVariableRelative g t f p n v x i R t' :
      lifted_at t (place p) = None -> is_variable U ol p = Some v ->
      looked_up (c_vars g) v (t_next t) = (x, i) ->
      relative g (with_next t (S i)) i (Some n) (Some R) t' ->
      argument g t f None p (Some n) (Some (QAll, i, Some (Both KAnd (among i x) R))) (Bound i false) g t'
  | AHoaUnbound g t f q p rel :
      lifted_at t (place p) = None -> is_variable U ol p = None -> is_hoa U p = true -> c_hoa g = None ->
      argument g t f q p rel None (Free (t_next t)) g (with_next t (S (t_next t)))
  | AHoa g t f p x :
      lifted_at t (place p) = None -> is_variable U ol p = None -> is_hoa U p = true -> c_hoa g = Some x ->
      argument g t f None p None None (Bound x false) g t
  | AHoaSome g t f q p rel x R t' :
      lifted_at t (place p) = None -> is_variable U ol p = None -> is_hoa U p = true -> c_hoa g = Some x ->
      (q <> None \/ rel <> None) ->
      relative g (with_next t (S (t_next t))) (t_next t) rel R t' ->
      argument g t f q p rel
        (Some (QAll, t_next t,
               Some (match R with
                     | None => among (t_next t) (Bound x false)
                     | Some R => Both KAnd (among (t_next t) (Bound x false)) R
                     end)))
        (Bound (t_next t) false) g t'
  | APlain g t f q p rel qq P i R0 R t' :
      lifted_at t (place p) = None -> is_variable U ol p = None -> is_hoa U p = false ->
      quantifies_as q = Some qq -> qq <> QHi ->
      predicate_of (c_vars g) p (S (t_next t)) = Some (P, i) ->
      relative g (with_next t i) (t_next t) rel R0 t' ->
      R = (let F := holds P [Some (Bound (t_next t) (given f))] in
           match R0 with None => F | Some G => Both KAnd F G end) ->
      argument g t f q p rel
        (match qq with
         | QThe => if depends g R then Some (QAll, t_next t, Some R) else None
         | _ => Some (qq, t_next t, Some R)
         end)
        (Bound (t_next t) (given f)) g
        (match qq with
         | QThe => if depends g R then t'
                   else State (t_next t') ((place p, t_next t) :: t_lifted t') (t_outer t' ++ [(t_next t, R)])
         | _ => t'
         end)
with relative : context -> state -> nat -> option node -> option formula -> state -> Prop :=
  | RNone g t x : relative g t x None None t
  | RSome g t x n F t' : clause (with_hoa g x) t n F t' -> relative g t x (Some n) (Some F) t'
with clause : context -> state -> node -> formula -> state -> Prop :=
  | CPredicationR g t st F t' : statement g t [] st F t' -> clause g t (NPredRel st) F t'
  | CStatementR g t lu st F t' : statement g t [] st F t' -> clause g t (NLU LRelative lu st) F t'
  | CConnectedR g t f m ru l r c F G t1 t2 :
      connects_as ru = Some c -> clause g t l F t1 -> clause g t1 r G t2 ->
      clause g t (NCoP CRelative f m ru l r) (Both c F G) t2.

(** ** Sentences and discourses *)

Inductive sentence : state -> node -> formula -> state -> Prop :=
  | SStatement t je st da F t' : statement (Context [] None) t [] st F t' -> sentence t (NSentence je st da) F t'
  | SConnected t f m ru l r F G t1 t2 :
      has_text U ru "ru" = true -> sentence t l F t1 -> sentence t1 r G t2 ->
      sentence t (NCoP CSentence f m ru l r) (Both KAnd F G) t2.

(** The sentences are connected from the left; what is no sentence is left out. *)
Inductive items : state -> option formula -> list node -> option formula -> state -> Prop :=
  | INone t o : items t o [] o t
  | ISkip t o n d o' t' : ~ sentence_item n -> items t o d o' t' -> items t o (n :: d) o' t'
  | ISentence t o n d F t1 o' t2 :
      sentence_item n -> sentence t n F t1 ->
      items t1 (Some (match o with None => F | Some G => Both KAnd G F end)) d o' t2 ->
      items t o (n :: d) o' t2.

(** In a restriction, a predicate without arguments is about the variable that is
    restricted, unless it mentions it. *)
Fixpoint filled (b : option nat) (F : formula) : formula :=
  match F with
  | Holds p l =>
      match b, l with
      | Some x, [] => if existsb (Nat.eqb x) (of_property p) then F else Holds p [Some (Bound x false)]
      | _, _ => F
      end
  | Both c l r => Both c (filled b l) (filled b r)
  | Quantified q x f R G =>
      Quantified q x f (match R with None => None | Some R => Some (filled (Some x) R) end) (filled None G)
  end.

Definition means (d : list node) (F : formula) : Prop :=
  exists G t,
    items (State 0 [] []) None d (Some G) t /\
    F = filled None (fold_right (fun b G => Quantified QThe (fst b) false (Some (snd b)) G) G (t_outer t)).

End Meaning.

(** ** Trees

    [reads h name env r F]: the tree at [r] is the formula [F], where [env] lists the bindings
    around it with the variables they bind, and [name] tells what the unbound ones are called.  The numbers in the tree do not matter. *)
Definition bound_to (env : list (nat * ref)) (x : nat) : option ref :=
  option_map snd (find (fun e => fst e =? x) env).
Inductive reads_thing (h : heap) (name : ref -> nat) (env : list (nat * ref)) : ref -> thing -> Prop :=
  | ReadBound r x n d f : nth_error h r = Some (CVariable n (Some d) f) -> bound_to env x = Some d -> reads_thing h name env r (Bound x f)
  | ReadFree r n : nth_error h r = Some (CVariable n None false) -> reads_thing h name env r (Free (name r)).
Inductive reads_property (h : heap) (name : ref -> nat) (env : list (nat * ref)) : ref -> property -> Prop :=
  | ReadNamed r s : nth_error h r = Some (CPred s) -> reads_property h name env r (Named s)
  | ReadUnnamed r t : reads_thing h name env r t -> reads_property h name env r (Unnamed t)
  | ReadSerial r x y p q :
      nth_error h r = Some (CSerial x y) -> reads_property h name env x p -> reads_property h name env y q ->
      reads_property h name env r (Serial p q).
Inductive optional {A B} (R : A -> B -> Prop) : option A -> option B -> Prop :=
  | Neither : optional R None None
  | BothSome a b : R a b -> optional R (Some a) (Some b).
Inductive reads (h : heap) (name : ref -> nat) : list (nat * ref) -> ref -> formula -> Prop :=
  | ReadHolds env r x xs p l :
      nth_error h r = Some (CPredication x xs) -> reads_property h name env x p ->
      Forall2 (optional (reads_thing h name env)) xs l ->
      reads h name env r (Holds p l)
  | ReadBoth env r c x y F G :
      nth_error h r = Some (CConnection c x y) -> reads h name env x F -> reads h name env y G ->
      reads h name env r (Both c F G)
  | ReadQuantified env r q n f s F i :
      nth_error h r = Some (CBinding q n f None (Some s)) -> reads h name ((i, r) :: env) s F ->
      reads h name env r (Quantified q i f None F)
  | ReadRestricted env r q n f x s R F i :
      nth_error h r = Some (CBinding q n f (Some x) (Some s)) ->
      reads h name ((i, r) :: env) x R -> reads h name ((i, r) :: env) s F ->
      reads h name env r (Quantified q i f (Some R) F).
