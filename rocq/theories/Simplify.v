(** Model of /repo/logic/simplify.go, and logic.Interpret. *)

From Coq Require Import String NArith List Bool Arith.
From Verif Require Import Base Ast Logic LogicWords Interp.
Import ListNotations.
Open Scope string_scope.
Open Scope list_scope.
Open Scope nat_scope.

(** ** merge, simplify.go:85-101 *)

(** sort.Ints. *)
Fixpoint insert (x : nat) (l : list nat) : list nat :=
  match l with
  | [] => [x]
  | y :: l' => if x <=? y then x :: l else y :: insert x l'
  end.
Definition sort (l : list nat) : list nat := fold_right insert [] l.

(** The values that the loop keeps, [y] being the last one kept. *)
Fixpoint distinct (y : nat) (l : list nat) : list nat :=
  match l with
  | [] => []
  | x :: l' => if y <? x then x :: distinct x l' else distinct y l'
  end.

(** The loop moves those values to the front of the slice and leaves the rest of the slice
    as it is; the whole slice is returned. *)
Definition merge (l r : list nat) : list nat :=
  match l with
  | [] => r
  | _ =>
      match sort (l ++ r) with
      | [] => []
      | y :: s => let u := y :: distinct y s in u ++ skipn (length u) (y :: s)
      end
  end.

(** The heap together with the map state.sub, simplify.go:103-106; a number that is not in
    the map is not in the list, a nil Argument in the map is [None]. *)
Record sst : Type := SSt { x_heap : heap; x_sub : list (nat * option ref) }.
Notation SM := (Logic.M sst).

Definition get (r : ref) : SM cell :=
  fun s => match nth_error (x_heap s) r with Some c => Ok (c, s) | None => Panic PRuntime end.
Definition set (r : ref) (c : cell) : SM unit :=
  fun s => Ok (tt, SSt (set_nth r c (x_heap s)) (x_sub s)).
Definition alloc (c : cell) : SM ref :=
  fun s => Ok (length (x_heap s), SSt (x_heap s ++ [c]) (x_sub s)).
Definition substitute (n : nat) (a : option ref) : SM unit :=
  fun s => Ok (tt, SSt (x_heap s) ((n, a) :: x_sub s)).
Definition substituted (n : nat) : SM (option (option ref)) :=
  fun s => Ok (match find (fun p => fst p =? n) (x_sub s) with Some (_, a) => Some a | None => None end, s).

(** ** addHoa, simplify.go:30-83 *)

Section Used.
Context (f : ref -> SM (list nat)).
(** The loops over Arguments, 44-48 and 65-69. *)
Fixpoint used_args (args : list (option ref)) (used : list nat) : SM (list nat) :=
  match args with
  | [] => ret used
  | None :: l => used_args l used
  | Some a :: l => do u <- f a ; used_args l (merge used u)
  end.
End Used.

(** [b] is the binding of which the node is a restriction. *)
Fixpoint add_hoa (fuel : nat) (r : ref) (b : option ref) : SM (list nat) :=
  match fuel with
  | O => out_of_fuel
  | S f =>
      do c <- get r ;
      match c with
      | CBinding _ _ _ rs sc =>                                     (* 30-36 *)
          do used <- match rs with Some x => add_hoa f x (Some r) | None => ret [] end ;
          match sc with
          | None => crash
          | Some x => do u <- add_hoa f x None ; ret (merge used u)
          end
      | CConnection _ x y =>                                        (* 38-40 *)
          do u <- add_hoa f x b ; do v <- add_hoa f y b ; ret (merge u v)
      | CPredication p args =>                                      (* 42-59 *)
          do u <- add_hoa f p None ;
          do used <- used_args (fun a => add_hoa f a None) args u ;
          match b, args with
          | Some bd, [] =>
              do c <- get bd ;
              match c with
              | CBinding _ n _ _ _ =>
                  if existsb (Nat.eqb n) used then ret used
                  else
                    do v <- alloc (CVariable n (Some bd) false) ;
                    do _ <- set r (CPredication p [Some v]) ;
                    ret used
              | _ => crash
              end
          | _, _ => ret used
          end
      | CVariable n _ _ => ret [n]                                  (* 61 *)
      | CPlurality args => used_args (fun a => add_hoa f a None) args []  (* 63-71 *)
      | CAbstraction x => add_hoa f x None                          (* 73 *)
      | CSerial x y =>                                              (* 75-77 *)
          do u <- add_hoa f x None ; do v <- add_hoa f y None ; ret (merge u v)
      | CSwap p _ => add_hoa f p None                               (* 79 *)
      | CQuote _ _ | CPred _ => ret []                              (* 81-83 *)
      end
  end.

(** ** The state, simplify.go:108-125: the numbers of variables that are predicates *)
Definition pred_var (h : heap) (r : ref) : list nat :=
  match nth_error h r with
  | Some (CPredication p _) =>
      match nth_error h p with Some (CVariable n _ _) => [n] | _ => [] end
  | _ => []
  end.
Definition pred_vars (fuel : nat) (h : heap) (r : ref) : res (list nat) :=
  bind (visited h fuel r) (fun l => Ok (flat_map (pred_var h) l)).

(** ** simplifyStatement, simplifyArgument and simplifyPredicate *)

Definition pad {A} (n : nat) (l : list (option A)) : list (option A) := l ++ repeat None (n - length l).

(** args[0], args[pos] = args[pos], args[0] *)
Definition exchange {A} (pos : nat) (l : list (option A)) : list (option A) :=
  set_nth pos (nth 0 l None) (set_nth 0 (nth pos l None) l).

Section Simplify.

(** state.predVars *)
Variable pv : list nat.

(** simplify.go:138-171, sub.  The first argument decides unless it is no Variable. *)
Definition is_constant (c : cell) : bool :=
  match c with CQuote _ _ | CPlurality _ | CAbstraction _ => true | _ => false end.
Definition sub (q : quant) (restr : option ref) : SM bool :=
  match restr with
  | None => ret false
  | Some p =>
      do c <- get p ;
      match c with
      | CPredication p [Some a0; Some a1] =>
          match q with
          | QThe | QAll =>
              do c <- get p ;
              match c with
              | CPred name =>
                  if negb (String.eqb name "=") then ret false
                  else
                    do cl <- get a0 ;
                    do cr <- get a1 ;
                    do o <- match cl, cr with
                            | CVariable n _ _, _ => ret (Some (n, a1, cr))
                            | _, CVariable n _ _ => ret (Some (n, a0, cl))
                            | _, _ => ret None
                            end ;
                    match o with
                    | None => ret false
                    | Some (n, a, ca) =>
                        if existsb (Nat.eqb n) pv then ret false
                        else if is_constant ca then do _ <- substitute n (Some a) ; ret true
                        else ret false
                    end
              | _ => ret false
              end
          | _ => ret false
          end
      | _ => ret false
      end
  end.

(** simplify.go:218-223, the number of lambdas in front of the statement of an
    Abstraction. *)
Fixpoint lambdas (fuel : nat) (h : heap) (r : ref) : res nat :=
  match fuel with
  | O => NoFuel
  | S f =>
      match nth_error h r with
      | Some (CBinding QLambda _ _ None sc) =>
          match sc with
          | Some s => bind (lambdas f h s) (fun n => Ok (S n))
          | None => Ok 1
          end
      | _ => Ok 0
      end
  end.

(** simplify.go:228-234, the loop that substitutes the arguments; the result is what is
    left of the statement. *)
Fixpoint bind_args (k : nat) (args : list (option ref)) (r : ref) : SM ref :=
  match k with
  | O => ret r
  | S k' =>
      do c <- get r ;
      match c, args with
      | CBinding _ n _ _ (Some sc), a :: args' => do _ <- substitute n a ; bind_args k' args' sc
      | _, _ => crash
      end
  end.

Section Map.
Context (f : ref -> SM (option ref)).
Fixpoint map_args (l : list (option ref)) : SM (list (option ref)) :=
  match l with
  | [] => ret []
  | None :: l' => do r <- map_args l' ; ret (None :: r)
  | Some a :: l' => do a' <- f a ; do r <- map_args l' ; ret (a' :: r)
  end.
(** The loop of simplify.go:248-259. *)
Fixpoint flat_args (l : list (option ref)) : SM (list (option ref)) :=
  match l with
  | [] => ret []
  | None :: l' => flat_args l'
  | Some a :: l' =>
      do a' <- f a ;
      do xs <- match a' with
               | None => ret [None]
               | Some x =>
                   do c <- get x ;
                   match c with
                   | CPlurality xs => ret xs
                   | _ => ret [Some x]
                   end
               end ;
      do r <- flat_args l' ; ret (xs ++ r)
  end.
End Map.

(** The three methods for a node of type Statement, Argument or Predicate. *)
Inductive role : Type := RStatement | RArgument | RPredicate.

(** The result is an Argument that may be nil for [RArgument]; it is never nil
    otherwise. *)
Fixpoint simplify (fuel : nat) (k : role) (r : ref) : SM (option ref) :=
  match fuel with
  | O => out_of_fuel
  | S f =>
      let node (k : role) (x : ref) : SM ref :=
        do o <- simplify f k x ; match o with Some y => ret y | None => crash end in
      do c <- get r ;
      match k, c with
      | RStatement, CBinding q n fo rs sc =>                        (* 127-136 *)
          do rs' <- match rs with
                    | None => ret None
                    | Some x => do y <- node RStatement x ; ret (Some y)
                    end ;
          do _ <- set r (CBinding q n fo rs' sc) ;
          match sc with
          | None => crash
          | Some x =>
              do b <- sub q rs' ;
              if (b : bool) then simplify f RStatement x
              else
                do y <- node RStatement x ;
                do _ <- set r (CBinding q n fo rs' (Some y)) ;
                ret (Some r)
          end
      | RStatement, CConnection con x y =>                          (* 173-177 *)
          do x' <- node RStatement x ;
          do y' <- node RStatement y ;
          do _ <- set r (CConnection con x' y') ;
          ret (Some r)
      | RStatement, CPredication p args =>                          (* 179-197 *)
          do args' <- map_args (simplify f RArgument) args ;
          do _ <- set r (CPredication p args') ;
          do pc <- get p ;
          match pc with
          | CSwap p' pos =>                                         (* 199-209, swap *)
              do _ <- set r (CPredication p' (exchange pos (pad (S pos) args'))) ;
              simplify f RStatement r
          | CAbstraction stmt =>                                    (* 211-236, lambdaSub *)
              do nl <- (fun s => bind (lambdas fuel (x_heap s) stmt) (fun n => Ok (n, s))) ;
              let na := length (filter (fun a => match a with Some _ => true | None => false end) args') in
              if (nl =? 0) || negb (na =? nl) then
                do p' <- node RPredicate p ;
                do _ <- set r (CPredication p' args') ;
                ret (Some r)
              else
                do x <- bind_args nl args' stmt ;
                simplify f RStatement x
          | _ =>
              do p' <- node RPredicate p ;
              do _ <- set r (CPredication p' args') ;
              ret (Some r)
          end
      | RPredicate, CVariable _ _ _ => ret (Some r)                 (* 238 *)
      | RArgument, CVariable n _ _ =>                               (* 240-245 *)
          do o <- substituted n ;
          match o with Some a => ret a | None => ret (Some r) end
      | RArgument, CPlurality args =>                               (* 247-262 *)
          do args' <- flat_args (simplify f RArgument) args ;
          do _ <- set r (CPlurality args') ;
          ret (Some r)
      | (RArgument | RPredicate), CAbstraction x =>                 (* 264-275 *)
          do y <- node RStatement x ;
          do _ <- set r (CAbstraction y) ;
          ret (Some r)
      | RPredicate, CSerial x y =>                                  (* 277-281 *)
          do x' <- node RPredicate x ;
          do y' <- node RPredicate y ;
          do _ <- set r (CSerial x' y') ;
          ret (Some r)
      | RPredicate, CSwap x pos =>                                  (* 283-286 *)
          do x' <- node RPredicate x ;
          do _ <- set r (CSwap x' pos) ;
          ret (Some r)
      | RPredicate, CPred _ => ret (Some r)                         (* 288 *)
      | RArgument, CQuote _ _ => ret (Some r)                       (* 289 *)
      | _, _ => crash
      end
  end.

End Simplify.

(** simplify.go:12-28, sequenceVarNums; [i] is the next number. *)
Fixpoint renumber (l : list ref) (i : nat) (h : heap) : res heap :=
  match l with
  | [] => Ok h
  | r :: l' =>
      match nth_error h r with
      | Some (CBinding q _ f rs sc) => renumber l' (S i) (set_nth r (CBinding q i f rs sc) h)
      | Some (CVariable _ None f) => renumber l' (S i) (set_nth r (CVariable i None f) h)
      | Some (CVariable _ (Some d) f) =>
          match nth_error h d with
          | Some (CBinding _ n _ _ _) => renumber l' i (set_nth r (CVariable n (Some d) f) h)
          | _ => Panic PRuntime
          end
      | _ => renumber l' i h
      end
  end.
Definition sequence_var_nums (fuel : nat) (h : heap) (r : ref) : res heap :=
  bind (visited h fuel r) (fun l => renumber l 0 h).

(** simplify.go:5-10, simplify. *)
Definition simplify_statement (fuel : nat) (r : ref) (h : heap) : res (ref * heap) :=
  bind (add_hoa fuel r None (SSt h [])) (fun p =>
  let h1 := x_heap (snd p) in
  bind (pred_vars fuel h1 r) (fun pv =>
  bind (simplify pv fuel RStatement r (SSt h1 [])) (fun p =>
  match p with
  | (Some r', s) => bind (sequence_var_nums fuel (x_heap s) r') (fun h2 => Ok (r', h2))
  | (None, _) => Panic PRuntime
  end))).

(** interp.go:15-22, Interpret, and text, 106-108.  [None] is the nil Statement; otherwise
    the tree is the node in the heap. *)
Definition interpret (U : unicode) (ol : list (N * N)) (fuel : nat) (d : list node) : res (option (ref * heap)) :=
  bind (discourse U ol fuel fuel d st0) (fun p =>
  match p with
  | (None, _) => Ok None
  | (Some r, s) => bind (simplify_statement fuel r (s_heap s)) (fun x => Ok (Some x))
  end).
