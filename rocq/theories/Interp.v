(** Model of /repo/logic/interp.go: from the AST to a logic tree that is not simplified
    yet. *)

From Coq Require Import String NArith List Bool Arith.
From Verif Require Import Base Utf8 PegSyntax Ast AstSorts Logic LogicWords.
Import ListNotations.
Open Scope string_scope.
Open Scope list_scope.
Open Scope nat_scope.

(** interp.go:25-67, interpreter, together with the heap.  The stacks hiScope, hoaScope and
    varScope have their top at the front.  Two things are simplified.  liftedScope, whose
    keys are pointers to PredicateArguments, is keyed by the offset of the first word of
    the argument's predicate.  predications, which only serves the AST fields, is left
    out. *)
Record st : Type := St {
  s_heap : heap;
  s_n : nat;
  s_the : list ref;
  s_hi : list (list ref);
  s_lifted : list (nat * ref);
  s_hoa : list ref;
  s_vars : list (string * ref)
}.

(** interp.go:59-64, newInterp. *)
Definition st0 : st := St [] 0 [] [] [] [] [].

Notation M := (Logic.M st).

(** Reading, writing and allocating nodes. *)
Definition get (r : ref) : M cell :=
  fun s => match nth_error (s_heap s) r with Some c => Ok (c, s) | None => Panic PRuntime end.
Definition with_heap (s : st) (h : heap) : st :=
  St h (s_n s) (s_the s) (s_hi s) (s_lifted s) (s_hoa s) (s_vars s).
Definition set (r : ref) (c : cell) : M unit :=
  fun s => Ok (tt, with_heap s (set_nth r c (s_heap s))).
Definition alloc (c : cell) : M ref :=
  fun s => Ok (length (s_heap s), with_heap s (s_heap s ++ [c])).

(** The fields of a Binding through a *Binding. *)
Record bnd : Type := Bnd { b_q : quant; b_n : nat; b_focus : bool; b_restr : option ref; b_scope : option ref }.
Definition get_binding (r : ref) : M bnd :=
  do c <- get r ;
  match c with
  | CBinding q n f rs sc => ret (Bnd q n f rs sc)
  | _ => crash
  end.
Definition set_binding (r : ref) (b : bnd) : M unit :=
  set r (CBinding (b_q b) (b_n b) (b_focus b) (b_restr b) (b_scope b)).
Definition set_restriction (r : ref) (st : ref) : M unit :=
  do b <- get_binding r ; set_binding r (Bnd (b_q b) (b_n b) (b_focus b) (Some st) (b_scope b)).
Definition set_scope (r : ref) (st : ref) : M unit :=
  do b <- get_binding r ; set_binding r (Bnd (b_q b) (b_n b) (b_focus b) (b_restr b) (Some st)).
Definition set_quantifier (r : ref) (q : quant) : M unit :=
  do b <- get_binding r ; set_binding r (Bnd q (b_n b) (b_focus b) (b_restr b) (b_scope b)).
Definition set_focus (r : ref) : M unit :=
  do b <- get_binding r ; set_binding r (Bnd (b_q b) (b_n b) true (b_restr b) (b_scope b)).

(** interp.go:71-75, newVar. *)
Definition new_var : M nat :=
  fun s => Ok (s_n s, St (s_heap s) (S (s_n s)) (s_the s) (s_hi s) (s_lifted s) (s_hoa s) (s_vars s)).

(** interp.go:78-82, pushVar. *)
Definition push_var (v : string) (def : ref) : M nat :=
  do x <- new_var ;
  fun s => Ok (x, St (s_heap s) (s_n s) (s_the s) (s_hi s) (s_lifted s) (s_hoa s) ((v, def) :: s_vars s)).

(** interp.go:88-96, lookupVar. *)
Definition lookup_var (v : string) : M (nat * option ref) :=
  fun s => match find (fun b => String.eqb (fst b) v) (s_vars s) with
           | Some (_, d) => (do b <- get_binding d ; ret (b_n b, Some d)) s
           | None => (do x <- new_var ; ret (x, None)) s
           end.

(** interp.go:98-104, pushHoa and popHoa. *)
Definition set_hoa (l : list ref) : M unit :=
  fun s => Ok (tt, St (s_heap s) (s_n s) (s_the s) (s_hi s) (s_lifted s) l (s_vars s)).
Definition hoa_scope : M (list ref) := fun s => Ok (s_hoa s, s).
Definition push_hoa (r : ref) : M unit := do l <- hoa_scope ; set_hoa (r :: l).
Definition pop_hoa : M unit := do l <- hoa_scope ; set_hoa (tl l).

(** The rest of the interpreter's fields. *)
Definition add_the (r : ref) : M unit :=
  fun s => Ok (tt, St (s_heap s) (s_n s) (s_the s ++ [r]) (s_hi s) (s_lifted s) (s_hoa s) (s_vars s)).
Definition the_scope : M (list ref) := fun s => Ok (s_the s, s).
Definition hi_scope : M (list (list ref)) := fun s => Ok (s_hi s, s).
Definition set_hi (l : list (list ref)) : M unit :=
  fun s => Ok (tt, St (s_heap s) (s_n s) (s_the s) l (s_lifted s) (s_hoa s) (s_vars s)).
Definition lifted (k : nat) : M (option ref) :=
  fun s => Ok (match find (fun p => Nat.eqb (fst p) k) (s_lifted s) with Some (_, r) => Some r | None => None end, s).
Definition set_lifted (k : nat) (r : ref) : M unit :=
  fun s => Ok (tt, St (s_heap s) (s_n s) (s_the s) (s_hi s) ((k, r) :: s_lifted s) (s_hoa s) (s_vars s)).
Definition var_scope : M (list (string * ref)) := fun s => Ok (s_vars s, s).
Definition set_vars (l : list (string * ref)) : M unit :=
  fun s => Ok (tt, St (s_heap s) (s_n s) (s_the s) (s_hi s) (s_lifted s) (s_hoa s) l).

(** The deferred function at the start of statement, poArgument, prenexStatement,
    preposition, predicationPreposition, adverb and relativeClause: varScope is restored.
    A panic leaves the interpreter for good, so nothing is restored then. *)
Definition with_vars {A} (m : M A) : M A :=
  do vs <- var_scope ; do a <- m ; do _ <- set_vars vs ; ret a.

(** interp.go:239-255, argument and arguments: position 0 means the next empty slot. *)
Definition args : Type := list (ref * nat).
Definition add (a : args) (r : ref) : args := a ++ [(r, 0)].
Definition add_at (a : args) (r : ref) (pos : nat) : args := a ++ [(r, pos)].

(** interp.go:287-313, orderArguments. *)
Section Order.
Context {A : Type}.
Definition nargs (a : list (A * nat)) : nat :=
  fold_left (fun n x => if n <? snd x then snd x else n) a (length a).
Definition place_linked (a : list (A * nat)) (l : list (option A)) : list (option A) :=
  fold_left (fun l x => match snd x with O => l | S p => set_nth p (Some (fst x)) l end) a l.
Fixpoint next_empty (l : list (option A)) (x : A) : res (list (option A)) :=
  match l with
  | [] => Panic PRuntime
  | None :: l' => Ok (Some x :: l')
  | y :: l' => bind (next_empty l' x) (fun l'' => Ok (y :: l''))
  end.
Fixpoint place_unlinked (a : list (A * nat)) (l : list (option A)) : res (list (option A)) :=
  match a with
  | [] => Ok l
  | (x, O) :: a' => bind (next_empty l x) (place_unlinked a')
  | _ :: a' => place_unlinked a' l
  end.
Definition order_arguments (a : list (A * nat)) : res (list (option A)) :=
  place_unlinked a (place_linked a (repeat None (nargs a))).
End Order.

(** interp.go:319-324, what predicate returns: a Predicate or a predConnection. *)
Inductive pcon : Type :=
  | PPred (r : ref)
  | PConn (c : conn) (l r : pcon).

(** interp.go:617-621, statementTail, and the second argument of preposition: a *Variable
    or a *statementTail. *)
Inductive arg0 : Type :=
  | AVar (r : ref)
  | ATail (a : args) (st : node) (bi : word) (terms : list node).

Definition tail_terms (a : arg0) : list node := match a with AVar _ => [] | ATail _ _ _ ts => ts end.
Definition with_terms (a : arg0) (ts : list node) : arg0 :=
  match a with AVar r => AVar r | ATail x s b _ => ATail x s b ts end.

(** The recursive methods and their arguments.  prenexStatement changes the slice of terms
    that it is given, so it also returns its last contents; so does preposition for the
    slice inside a statementTail.  The *PrenexStatement passed along is its Statement and
    Prenex.BI here, the only fields read from it. *)
Inductive call : Type -> Type :=
  | KSentence (n : node) : call ref
  | KSubordinate (n : node) : call ref
  | KStatement (a : args) (n : node) : call ref
  | KPredicate (n : node) : call pcon
  | KPoArgument (pred a0 : ref) (a1 : node) : call ref
  | KPrenex (a : args) (st : node) (bi : word) (terms : list node) : call (ref * list node)
  | KPreposition (n : node) (a0 : arg0) : call (ref * list node)
  | KPredPreposition (p : node) (a0 : arg0) (a1 : node) : call (ref * list node)
  | KAdverb (n : node) (a : ref) : call ref
  | KRoi (l r : node) : call (option ref * ref)
  | KRoiLeft (x : ref) (l r : node) : call ref
  | KRoiRight (x l : ref) (r : node) : call ref
  | KPredArg (f q : option word) (p : node) (rel : option node) : call (option ref * ref)
  | KRelative (b : option ref) (n : node) : call ref.

(** A type assertion n.(T), where T is implemented by the types listed. *)
Definition assert (l : list shape) (n : node) : M node := if among l n then ret n else crash.

(** The key of a PredicateArgument in liftedScope. *)
Definition key (p : node) : nat := match node_start p with Ok k => k | _ => 0 end.

Section Interp.

Variable U : unicode.
Variable ol : list (N * N).
(** The bound for walks over the heap. *)
Variable vf : nat.

Notation has_text := (has_text U).
Notation connector := (fun w => lift (connector U w)).
Notation quantifier := (fun w => lift (quantifier U w)).

(** interp.go:989-999, bindScope. *)
Fixpoint bind_scope_fuel (fuel : nat) (b : ref) (stmt : ref) : M ref :=
  match fuel with
  | O => out_of_fuel
  | S f =>
      do c <- get_binding b ;
      match b_scope c with
      | None => do _ <- set_scope b stmt ; ret b
      | Some s => do s' <- bind_scope_fuel f s stmt ; do _ <- set_scope b s' ; ret b
      end
  end.
Definition bind_scope (b : option ref) (stmt : ref) : M ref :=
  match b with None => ret stmt | Some b => bind_scope_fuel vf b stmt end.

(** interp.go:1098-1112, hasFreeVars. *)
Definition memb (r : ref) (l : list ref) : bool := existsb (Nat.eqb r) l.
Fixpoint free_scan (h : heap) (l : list ref) (binds : list ref) (free : bool) : res bool :=
  match l with
  | [] => Ok free
  | r :: l' =>
      match nth_error h r with
      | Some (CBinding _ _ _ _ _) => free_scan h l' (r :: binds) free
      | Some (CVariable _ (Some d) _) =>
          match nth_error h d with
          | Some (CBinding q _ _ _ _) =>
              free_scan h l' binds
                (free || negb (match q with QThe => true | _ => false end) && negb (memb d binds))
          | _ => Panic PRuntime
          end
      | _ => free_scan h l' binds free
      end
  end.
Definition has_free_vars (r : ref) : M bool :=
  fun s => bind (visited (s_heap s) vf r) (fun l =>
           bind (free_scan (s_heap s) l [] false) (fun b => Ok (b, s))).

(** interp.go:184-199, clearHiFreeVarDefs.  [scope] is the list of the bindings in scope. *)
Fixpoint clear_vars (scope : list ref) (l : list ref) : M unit :=
  match l with
  | [] => ret tt
  | r :: l' =>
      do c <- get r ;
      match c with
      | CVariable _ d f =>
          if match d with Some x => memb x scope | None => false end then clear_vars scope l'
          else do x <- new_var ; do _ <- set r (CVariable x None f) ; clear_vars scope l'
      | _ => clear_vars scope l'
      end
  end.
Definition clear_hi_free_var_defs (scope : list ref) (hi : ref) : M unit :=
  fun s => bind (visited (s_heap s) vf hi) (fun l => clear_vars scope l s).

(** interp.go:164-179, subordinate: the loop at 171-177 and the rest. *)
Fixpoint bind_his (scope : list ref) (his : list ref) (stmt : ref) : M ref :=
  match his with
  | [] => ret stmt
  | hi :: l =>
      let scope' := hi :: scope in
      do _ <- clear_hi_free_var_defs scope' hi ;
      do s' <- bind_scope (Some hi) stmt ;
      bind_his scope' l s'
  end.
Definition subordinate (f : M ref) : M ref :=
  do hs <- hi_scope ;
  do _ <- set_hi ([] :: hs) ;
  do stmt <- f ;
  do vs <- var_scope ;
  do hs' <- hi_scope ;
  do stmt' <- bind_his (map snd vs) (rev (hd [] hs')) stmt ;
  do _ <- set_hi (tl hs') ;
  ret stmt'.

(** interp.go:261-285, distributePredication. *)
Fixpoint distribute_predication (p : pcon) (a : args) : M ref :=
  match p with
  | PConn c l r =>
      do x <- distribute_predication l a ;
      do y <- distribute_predication r a ;
      alloc (CConnection c x y)
  | PPred r => do o <- lift (order_arguments a) ; alloc (CPredication r o)
  end.

(** interp.go:440-470, serialPredicateLeft and serialPredicateRight.  In the latter [l] is
    a Predicate, so that its calls of serialPredicateLeft call it again at once. *)
Fixpoint serial_right (l : ref) (r : pcon) : M pcon :=
  match r with
  | PConn c r1 r2 =>
      do x <- serial_right l r1 ;
      do y <- serial_right l r2 ;
      ret (PConn c x y)
  | PPred r => do x <- alloc (CSerial l r) ; ret (PPred x)
  end.
Fixpoint serial_left (l r : pcon) : M pcon :=
  match l with
  | PConn c l1 l2 =>
      do x <- serial_left l1 r ;
      do y <- serial_left l2 r ;
      ret (PConn c x y)
  | PPred l => serial_right l r
  end.

(** interp.go:973-987, makeLambda.  The lambda is allocated before its scope here. *)
Definition make_lambda (pred arg1 : ref) : M ref :=
  do x <- new_var ;
  do lambda <- alloc (CBinding QLambda x false None None) ;
  do a0 <- alloc (CVariable x (Some lambda) false) ;
  do sc <- alloc (CPredication pred [Some a0; Some arg1]) ;
  do _ <- set_scope lambda sc ;
  alloc (CAbstraction lambda).

(** interp.go:409-413, makeContentPred. *)
Definition make_content_pred (stmt : ref) : M ref :=
  do equal <- alloc (CPred "=") ;
  do content <- alloc (CAbstraction stmt) ;
  make_lambda equal content.

(** A new Binding b and a Variable for it, as in prenexStatement, predicationPreposition,
    roi, predicateArgument, varArgument and hoaArgument. *)
Definition new_binding (q : quant) (focus : bool) : M (ref * ref) :=
  do x <- new_var ;
  do b <- alloc (CBinding q x false None None) ;
  do a <- alloc (CVariable x (Some b) focus) ;
  ret (b, a).

(** Binding a to a content clause: interp.go:578-584, 592-598 and 698-703. *)
Definition restrict_content (b a stmt : ref) : M unit :=
  do c <- make_content_pred stmt ;
  do r <- alloc (CPredication c [Some a]) ;
  set_restriction b r.

Definition is_none {A} (o : option A) : bool := match o with None => true | Some _ => false end.

Section Body.

(** The methods calling each other. *)
Variable self : forall A, call A -> M A.
Arguments self {A} _.

(** interp.go:137-154, sentence. *)
Definition do_sentence (n : node) : M ref :=
  match n with
  | NSentence _ stmt _ => self (KSubordinate stmt)
  | NCoP CSentence _ _ ru l r =>
      if negb (has_text ru "ru") then panic ("bad sentence connector: " ++ w_t ru)
      else
        do l <- assert sentences l ; do x <- self (KSentence l) ;
        do r <- assert sentences r ; do y <- self (KSentence r) ;
        alloc (CConnection KAnd x y)
  | _ => panic ("unknown sentence type " ++ go_type n)
  end.

(** interp.go:257-259, predication. *)
Definition predication (p : node) (a : args) : M ref :=
  do c <- self (KPredicate p) ; distribute_predication c a.

(** interp.go:965-971, makePredication. *)
Definition make_predication (p : node) (l : list ref) : M ref :=
  predication p (map (fun r => (r, 0)) l).

(** interp.go:201-237, statement. *)
Definition do_statement (a : args) (n : node) : M ref :=
  with_vars
    match n with
    | NPrenexStmt (NPrenex ts bi) stmt =>
        do '(x, _) <- self (KPrenex a stmt bi ts) ; ret x
    | NPredication p None _ => predication p a
    | NPredication p (Some ts) na =>
        self (KStatement a (NPrenexStmt (NPrenex ts (Wd "pa" 0 0 None)) (NPredication p None na)))
    | NCoP CStatement _ _ ru l r =>
        do c <- connector ru ;
        do l <- assert statements l ; do x <- self (KStatement a l) ;
        do r <- assert statements r ; do y <- self (KStatement a r) ;
        alloc (CConnection c x y)
    | _ => panic ("unknown statement type " ++ go_type n)
    end.

(** interp.go:472-484, poPredicate. *)
Definition po_predicate (po : word) (arg : node) : M ref :=
  do nm <- lift (po_pred U po) ;
  do pred <- alloc (CPred nm) ;
  do x <- new_var ;
  do lambda <- alloc (CBinding QLambda x false None None) ;
  do a0 <- alloc (CVariable x (Some lambda) false) ;
  do sc <- self (KPoArgument pred a0 arg) ;
  do _ <- set_scope lambda sc ;
  alloc (CAbstraction lambda).

(** interp.go:326-407, predicate, with serialPredicate, 434-438. *)
Definition do_predicate (n : node) : M pcon :=
  match n with
  | NWordPredicate w =>
      match is_variable U ol n with
      | Some v =>
          do '(x, def) <- lookup_var v ;
          do r <- alloc (CVariable x def false) ; ret (PPred r)
      | None =>
          if is_hoa U n then
            do l <- hoa_scope ;
            match l with
            | [] => do x <- new_var ; do r <- alloc (CVariable x None false) ; ret (PPred r)
            | def :: _ =>
                do b <- get_binding def ;
                do r <- alloc (CVariable (b_n b) (Some def) false) ; ret (PPred r)
            end
          else do r <- alloc (CPred (word_pred U (w_t w))) ; ret (PPred r)
      end
  | NSerial l r =>
      do l <- assert predicates l ; do x <- self (KPredicate l) ;
      do r <- assert predicates r ; do y <- self (KPredicate r) ;
      serial_left x y
  | NMi mi _ phrase =>
      do q <- alloc (CQuote (to_string U phrase) false) ;
      do m <- lift (mi_pred U mi) ;
      do p <- match m with
              | MiName => do c <- alloc (CPred "chua") ; alloc (CSwap c 1)
              | MiWord => alloc (CPred "=")
              end ;
      do r <- make_lambda p q ; ret (PPred r)
  | NPo po _ arg => do r <- po_predicate po arg ; ret (PPred r)
  | NMo _ _ d =>
      do p <- alloc (CPred "=") ;
      do q <- alloc (CQuote (to_string U (NDiscourse d)) true) ;
      do r <- make_lambda p q ; ret (PPred r)
  | NLU LPredicate lu stmt =>
      if has_text lu "lu" then
        do x <- new_var ;
        do b <- alloc (CBinding QLambda x false None None) ;
        do _ <- push_hoa b ;
        do s <- self (KSubordinate stmt) ;
        do s' <- bind_scope (Some b) s ;
        do r <- alloc (CAbstraction s') ;
        do _ <- pop_hoa ;
        ret (PPred r)
      else
        do s <- self (KSubordinate stmt) ;
        do r <- alloc (CAbstraction s) ;
        ret (PPred r)
  | NCoP CPredicate _ _ ru l r | NCoP CContent _ _ ru l r =>
      do c <- connector ru ;
      do l <- assert predicates l ; do x <- self (KPredicate l) ;
      do r <- assert predicates r ; do y <- self (KPredicate r) ;
      ret (PConn c x y)
  | NLU LContent _ stmt =>
      do s <- self (KSubordinate stmt) ; do r <- make_content_pred s ; ret (PPred r)
  | NPredContent p =>
      do s <- self (KSubordinate p) ; do r <- make_content_pred s ; ret (PPred r)
  | _ => panic ("unknown predicate type " ++ go_type n)
  end.

(** The argument of a po-phrase, a linked term, a preposition and an operand of roi is
    read in the same way: interp.go:489-508, 553-578, 671-687, 746-764, 769-788.  [one] is
    what follows for a single argument, [two] for a connection. *)
Definition argument_case {A} (n : node) (unknown : string)
    (one : option ref -> ref -> M A) (two : word -> node -> node -> M A) : M A :=
  match n with
  | NPredArg f q p rel => do '(b, a) <- self (KPredArg f q p rel) ; one b a
  | NCoP CArgument _ _ ru l r =>
      if has_text ru "roi" then do '(b, a) <- self (KRoi l r) ; one b a
      else two ru l r
  | _ => panic ("unknown argument type " ++ unknown)
  end.

(** interp.go:486-515, poArgument. *)
Definition po_argument (pred a0 : ref) (a1 : node) : M ref :=
  with_vars
    (argument_case a1 "*ast.POPredicate"
      (fun b a => do s <- alloc (CPredication pred [Some a0; Some a]) ; bind_scope b s)
      (fun ru l r =>
         do c <- connector ru ;
         do l <- assert arguments l ; do x <- self (KPoArgument pred a0 l) ;
         do r <- assert arguments r ; do y <- self (KPoArgument pred a0 r) ;
         alloc (CConnection c x y))).

(** interp.go:519-615, prenexStatement.  [withTerm0], 1092-1095, is the replacement of the
    first term. *)
Definition prenex_statement (a : args) (stmt : node) (bi : word) (terms : list node) : M (ref * list node) :=
  with_vars
    match terms with
    | [] =>
        do x <- self (KStatement (if has_text bi "pa" then a else []) stmt) ;
        ret (x, [])
    | t :: rest =>
        match t with
        | NCoP CTermSet _ _ ru l r =>
            match l, r with
            | NTerms tl, NTerms tr =>
                do c <- connector ru ;
                do '(x, _) <- self (KPrenex a stmt bi (prepend rest tl)) ;
                do '(y, _) <- self (KPrenex a stmt bi (prepend rest tr)) ;
                do z <- alloc (CConnection c x y) ;
                ret (z, terms)
            | _, _ => crash
            end
        | NCoP CArgument _ _ ru l r =>
            if has_text ru "roi" then
              do '(b, x) <- self (KRoi l r) ;
              do '(s, rest') <- self (KPrenex (add a x) stmt bi rest) ;
              do z <- bind_scope b s ;
              ret (z, t :: rest')
            else
              do l <- assert terms_ l ; do r <- assert terms_ r ;
              do c <- connector ru ;
              do '(x, terms1) <- self (KPrenex a stmt bi (l :: rest)) ;
              do '(y, terms2) <- self (KPrenex a stmt bi (r :: tl terms1)) ;
              do z <- alloc (CConnection c x y) ;
              ret (z, terms2)
        | NPredArg f q p rel =>
            do '(b, x) <- self (KPredArg f q p rel) ;
            do _ <- match b with
                    | Some b => if negb (is_none f) && negb (has_text bi "pa") then set_focus b else ret tt
                    | None => ret tt
                    end ;
            do '(s, rest') <- self (KPrenex (add a x) stmt bi rest) ;
            do z <- bind_scope b s ;
            ret (z, t :: rest')
        | NLinked go arg =>
            argument_case arg "*ast.PrenexStatement"
              (fun b x =>
                 do pos <- lift (go_pos U go) ;
                 do '(s, rest') <- self (KPrenex (add_at a x pos) stmt bi rest) ;
                 do z <- bind_scope b s ;
                 ret (z, t :: rest'))
              (fun ru l r =>
                 do l <- assert arguments l ; do r <- assert arguments r ;
                 do c <- connector ru ;
                 do '(x, terms1) <- self (KPrenex a stmt bi (NLinked go l :: rest)) ;
                 do '(y, terms2) <- self (KPrenex a stmt bi (NLinked go r :: tl terms1)) ;
                 do z <- alloc (CConnection c x y) ;
                 ret (z, terms2))
        | NPrep _ _ | NCoP CPreposition _ _ _ _ _ =>
            do '(sub, rest') <- self (KPrenex a stmt bi rest) ;
            do free <- has_free_vars sub ;
            if (free : bool) then
              do '(z, rest'') <- self (KPreposition t (ATail a stmt bi rest')) ;
              ret (z, t :: rest'')
            else
              do '(b, x) <- new_binding QThe false ;
              do _ <- restrict_content b x sub ;
              do _ <- add_the b ;
              do '(z, _) <- self (KPreposition t (AVar x)) ;
              ret (z, t :: rest')
        | NAdverb _ | NCoP CAdverb _ _ _ _ _ =>
            do '(sub, rest') <- self (KPrenex a stmt bi rest) ;
            do '(b, x) <- new_binding QUnset false ;
            do _ <- restrict_content b x sub ;
            do free <- has_free_vars sub ;
            if (free : bool) then
              do _ <- set_quantifier b QAll ;
              do s <- self (KAdverb t x) ;
              do z <- bind_scope (Some b) s ;
              ret (z, t :: rest')
            else
              do _ <- set_quantifier b QThe ;
              do _ <- add_the b ;
              do z <- self (KAdverb t x) ;
              ret (z, t :: rest')
        | _ => panic "unknown term type *ast.PrenexStatement"
        end
    end.

(** interp.go:646-666, preposition. *)
Definition do_preposition (n : node) (a0 : arg0) : M (ref * list node) :=
  with_vars
    match n with
    | NPrep p arg => self (KPredPreposition p a0 arg)
    | NCoP CPreposition _ _ ru l r =>
        do c <- connector ru ;
        do l <- assert prepositions l ;
        do '(x, ts1) <- self (KPreposition l a0) ;
        do r <- assert prepositions r ;
        do '(y, ts2) <- self (KPreposition r (with_terms a0 ts1)) ;
        do z <- alloc (CConnection c x y) ;
        ret (z, ts2)
    | _ => panic ("unknown preposition type " ++ go_type n)
    end.

(** interp.go:668-712, predicationPreposition. *)
Definition pred_preposition (p : node) (a0 : arg0) (a1 : node) : M (ref * list node) :=
  with_vars
    (argument_case a1 (go_type a1)
      (fun b a =>
         match a0 with
         | AVar v =>
             do s <- make_predication p [v; a] ;
             do z <- bind_scope b s ;
             ret (z, [])
         | ATail args0 stmt bi terms =>
             do '(sub, terms') <- self (KPrenex args0 stmt bi terms) ;
             do '(b1, x) <- new_binding QAll false ;
             do _ <- restrict_content b1 x sub ;
             do s <- make_predication p [x; a] ;
             do s' <- bind_scope (Some b1) s ;
             do z <- bind_scope b s' ;
             ret (z, terms')
         end)
      (fun ru l r =>
         do c <- connector ru ;
         do l1 <- assert arguments l ;
         do '(x, ts1) <- self (KPredPreposition p a0 l1) ;
         do l2 <- assert arguments l ;
         do '(y, ts2) <- self (KPredPreposition p (with_terms a0 ts1) l2) ;
         do z <- alloc (CConnection c x y) ;
         ret (z, ts2))).

(** interp.go:714-734, adverb. *)
Definition do_adverb (n : node) (a : ref) : M ref :=
  with_vars
    match n with
    | NAdverb p => make_predication p [a]
    | NCoP CAdverb _ _ ru l r =>
        do c <- connector ru ;
        do l <- assert adverbs l ; do x <- self (KAdverb l a) ;
        do r <- assert adverbs r ; do y <- self (KAdverb r a) ;
        alloc (CConnection c x y)
    | _ => panic ("unknown adverb type " ++ go_type n)
    end.

(** interp.go:736-742, roi. *)
Definition do_roi (l r : node) : M (option ref * ref) :=
  do '(b, a) <- new_binding QThe false ;
  do l <- assert arguments l ;
  do r <- assert arguments r ;
  do s <- self (KRoiLeft a l r) ;
  do _ <- set_restriction b s ;
  ret (Some b, a).

(** interp.go:744-765, roiLeft. *)
Definition roi_left (x : ref) (left right : node) : M ref :=
  argument_case left (go_type left)
    (fun b a => do s <- self (KRoiRight x a right) ; bind_scope b s)
    (fun ru l r =>
       do c <- connector ru ;
       do l <- assert arguments l ; do s <- self (KRoiLeft x l right) ;
       do r <- assert arguments r ; do s' <- self (KRoiLeft x r right) ;
       alloc (CConnection c s s')).

(** interp.go:767-797, roiRight. *)
Definition roi_right (x left : ref) (right : node) : M ref :=
  argument_case right (go_type right)
    (fun b a =>
       do plural <- alloc (CPlurality [Some left; Some a]) ;
       do equal <- alloc (CPred "=") ;
       do s <- alloc (CPredication equal [Some x; Some plural]) ;
       bind_scope b s)
    (fun ru l r =>
       do c <- connector ru ;
       do l <- assert arguments l ; do s <- self (KRoiRight x left l) ;
       do r <- assert arguments r ; do s' <- self (KRoiRight x left r) ;
       alloc (CConnection c s s')).

(** interp.go:852-891, varArgument for the variable [v]. *)
Definition var_argument (v : string) (q : option word) (rel : option node) : M (option ref * ref) :=
  match q with
  | Some _ =>
      do qq <- quantifier q ;
      do b <- alloc (CBinding qq 0 false None None) ;
      do x <- push_var v b ;
      do _ <- set_binding b (Bnd qq x false None None) ;
      do a <- alloc (CVariable x (Some b) false) ;
      do _ <- match rel with
              | Some n => do r <- self (KRelative (Some b) n) ; set_restriction b r
              | None => ret tt
              end ;
      ret (Some b, a)
  | None =>
      do '(x, def) <- lookup_var v ;
      do ax <- alloc (CVariable x def false) ;
      match rel with
      | None => ret (None, ax)
      | Some n =>
          do '(b, ay) <- new_binding QAll false ;
          do among <- alloc (CPred "≺") ;
          do l <- alloc (CPredication among [Some ay; Some ax]) ;
          do r <- self (KRelative (Some b) n) ;
          do s <- alloc (CConnection KAnd l r) ;
          do _ <- set_restriction b s ;
          ret (Some b, ay)
      end
  end.

(** interp.go:893-925, hoaArgument. *)
Definition hoa_argument (q : option word) (rel : option node) : M (option ref * ref) :=
  do hs <- hoa_scope ;
  match hs with
  | [] => do x <- new_var ; do a <- alloc (CVariable x None false) ; ret (None, a)
  | def :: _ =>
      do d <- get_binding def ;
      do ax <- alloc (CVariable (b_n d) (Some def) false) ;
      match q, rel with
      | None, None => ret (None, ax)
      | _, _ =>
          do '(b, ay) <- new_binding QAll false ;
          do among <- alloc (CPred "≺") ;
          do l <- alloc (CPredication among [Some ay; Some ax]) ;
          do _ <- set_restriction b l ;
          do _ <- match rel with
                  | Some n =>
                      do r <- self (KRelative (Some b) n) ;
                      do s <- alloc (CConnection KAnd l r) ;
                      set_restriction b s
                  | None => ret tt
                  end ;
          ret (Some b, ay)
      end
  end.

(** interp.go:799-850, predicateArgument. *)
Definition predicate_argument (f q : option word) (p : node) (rel : option node) : M (option ref * ref) :=
  do seen <- lifted (key p) ;
  match seen with
  | Some b => do c <- get_binding b ; do a <- alloc (CVariable (b_n c) (Some b) false) ; ret (None, a)
  | None =>
      match is_variable U ol p with
      | Some v => var_argument v q rel
      | None =>
          if is_hoa U p then hoa_argument q rel
          else
            do qq <- quantifier q ;
            do '(b, a) <- new_binding qq (negb (is_none f)) ;
            do s <- make_predication p [a] ;
            do _ <- set_restriction b s ;
            do _ <- match rel with
                    | Some n =>
                        do r <- self (KRelative (Some b) n) ;
                        do s' <- alloc (CConnection KAnd s r) ;
                        set_restriction b s'
                    | None => ret tt
                    end ;
            match qq with
            | QThe =>
                do free <- has_free_vars b ;
                if (free : bool) then do _ <- set_quantifier b QAll ; ret (Some b, a)
                else
                  do _ <- set_lifted (key p) b ;
                  do _ <- add_the b ;
                  ret (None, a)
            | QHi =>
                do _ <- set_lifted (key p) b ;
                do hs <- hi_scope ;
                match hs with
                | [] => crash
                | top :: hs' => do _ <- set_hi ((top ++ [b]) :: hs') ; ret (None, a)
                end
            | _ => ret (Some b, a)
            end
      end
  end.

(** interp.go:940-963, relativeClause. *)
Definition relative_clause (b : option ref) (n : node) : M ref :=
  with_vars
    (do _ <- match b with Some b => push_hoa b | None => ret tt end ;
     do s <- match n with
             | NPredRel p => self (KSubordinate p)
             | NLU LRelative _ stmt => self (KSubordinate stmt)
             | NCoP CRelative _ _ ru l r =>
                 do c <- connector ru ;
                 do l <- assert relatives l ; do x <- self (KRelative None l) ;
                 do r <- assert relatives r ; do y <- self (KRelative None r) ;
                 alloc (CConnection c x y)
             | _ => panic ("unknown relative clause type " ++ go_type n)
             end ;
     do _ <- match b with Some _ => pop_hoa | None => ret tt end ;
     ret s).

Definition body {A} (c : call A) : M A :=
  match c in call A return M A with
  | KSentence n => do_sentence n
  | KSubordinate n => subordinate (self (KStatement [] n))     (* interp.go:156-160 *)
  | KStatement a n => do_statement a n
  | KPredicate n => do_predicate n
  | KPoArgument pred a0 a1 => po_argument pred a0 a1
  | KPrenex a stmt bi ts => prenex_statement a stmt bi ts
  | KPreposition n a0 => do_preposition n a0
  | KPredPreposition p a0 a1 => pred_preposition p a0 a1
  | KAdverb n a => do_adverb n a
  | KRoi l r => do_roi l r
  | KRoiLeft x l r => roi_left x l r
  | KRoiRight x l r => roi_right x l r
  | KPredArg f q p rel => predicate_argument f q p rel
  | KRelative b n => relative_clause b n
  end.

End Body.

Fixpoint run (fuel : nat) (A : Type) (c : call A) : M A :=
  match fuel with
  | O => out_of_fuel
  | S f => body (run f) c
  end.

(** interp.go:110-135, discourse: the loop over the items, then the bindings of theScope;
    [None] is the nil Statement.  The last binding is the innermost; binding a nil
    Statement, which needs a text without sentences that still has bindings, does not
    happen (theScope is empty then) and panics here. *)
Fixpoint all_items (fuel : nat) (l : list node) (stmt : option ref) : M (option ref) :=
  match l with
  | [] => ret stmt
  | n :: l' =>
      if is_fragment n then all_items fuel l' stmt
      else if is_sentence n then
        do x <- run fuel ref (KSentence n) ;
        match stmt with
        | None => all_items fuel l' (Some x)
        | Some s => do z <- alloc (CConnection KAnd s x) ; all_items fuel l' (Some z)
        end
      else panic ("unknown discourse item type " ++ go_type n)
  end.
Fixpoint bind_all (l : list ref) (stmt : option ref) : M (option ref) :=
  match l, stmt with
  | [], _ => ret stmt
  | b :: l', Some s => do s' <- bind_scope (Some b) s ; bind_all l' (Some s')
  | _ :: _, None => crash
  end.
Definition discourse (fuel : nat) (d : list node) : M (option ref) :=
  do stmt <- all_items fuel d None ;
  do the <- the_scope ;
  bind_all (rev the) stmt.

End Interp.
