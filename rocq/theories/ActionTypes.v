(** Types for the values of the actions, computed from the grammar.

    The type of a rule says which values it can have: strings from a finite set or with
    a first rune from a finite set, words, nodes of certain shapes holding well-sorted
    trees, and the intermediate values of the actions.  [rule_types] is found by
    iteration; ActionTypeFacts.v shows that it is right. *)

From Coq Require Import String Ascii NArith PArith List Bool FMapPositive.
From Verif Require Import Base Utf8 PegSyntax Grammar Peg PegToaq Tone Ast Action AstSorts.
Import ListNotations.
Open Scope string_scope.
Open Scope list_scope.

Inductive ty : Type :=
  | TBot                                 (* no value *)
  | TAny
  | TStr
  | TSet (l : list string)               (* one of these strings *)
  | THead (l : list string)              (* a string that begins with one of these *)
  | TWord
  | TNode (l : list shape)               (* a well-sorted node of one of these shapes *)
  | TOpt (t : ty)
  | TRaw (f l r : list shape)            (* a CoP with such operands, [f] if it has TO words *)
  | TBar (r : list shape) | TForeBar (r : list shape) | TFore (l r : list shape)
  | TConn | TMo | TParen | TLU.

Definition snode (n : node) : bool := nearly_sorted n.
Definition sword (w : word) : bool := sorted_word real_left real_right w.
Definition okn (l : list shape) (n : node) : bool := among l n && snode n.

Fixpoint hasty (t : ty) (v : val) {struct t} : Prop :=
  match t with
  | TBot => False
  | TAny => True
  | TStr => exists s, v = VStr s
  | TSet l => exists s, v = VStr s /\ In s l
  | THead l => exists h s, v = VStr (h ++ s) /\ In h l
  | TWord => exists w, v = VWord w /\ sword w = true
  | TNode l => exists n, v = VNode n /\ okn l n = true
  | TOpt t => v = VOpt None \/ exists x, v = VOpt (Some x) /\ hasty t x
  | TRaw f l r => exists to0 to1 ru a b, v = VNode (NCoP CRaw to0 to1 ru a b) /\
      on_opt sword to0 = true /\ on_opt sword to1 = true /\ same_opt to0 to1 = true /\
      sword ru = true /\ okn (if is_some to0 then f else l) a = true /\ okn r b = true
  | TBar r => exists ru b, v = VBar ru b /\ sword ru = true /\ okn r b = true
  | TForeBar r => exists to b, v = VForeBar to b /\ sword to = true /\ okn r b = true
  | TFore l r => exists to a b, v = VFore to a b /\ sword to = true /\ okn l a = true /\ okn r b = true
  | TConn => exists to ru, v = VConn to ru /\ sword to = true /\ sword ru = true
  | TMo => exists mo d, v = VMo mo d /\ sword mo = true /\ snode (NDiscourse d) = true
  | TParen => exists mo d, v = VParen mo d /\ sword mo = true /\ snode (NDiscourse d) = true
  | TLU => exists lu st, v = VNode (NLU LRaw lu st) /\ sword lu = true /\ okn statements st = true
  end.

Definition tenv : Type := list (nat * ty).
Definition hasenv (te : tenv) (en : env) : Prop :=
  Forall2 (fun a b => fst a = fst b /\ hasty (snd a) (snd b)) te en.

(** ** Join *)

Definition in_dec_b {A} (dec : forall a b : A, {a = b} + {a <> b}) (x : A) (l : list A) : bool :=
  if in_dec dec x l then true else false.
Definition union {A} (dec : forall a b : A, {a = b} + {a <> b}) (a b : list A) : list A :=
  b ++ filter (fun x => negb (in_dec_b dec x b)) a.
Definition incl_b {A} (dec : forall a b : A, {a = b} + {a <> b}) (a b : list A) : bool :=
  forallb (fun x => in_dec_b dec x b) a.
Notation sunion := (union string_dec).
Notation punion := (union shape_eq_dec).
Definition within (a b : list shape) : bool := incl_b shape_eq_dec a b.

Fixpoint join (a b : ty) : ty :=
  match a, b with
  | TBot, t | t, TBot => t
  | TStr, TStr | TStr, TSet _ | TStr, THead _ | TSet _, TStr | THead _, TStr => TStr
  | TSet l, TSet m => TSet (sunion l m)
  | TSet l, THead m | THead l, TSet m | THead l, THead m => THead (sunion l m)
  | TWord, TWord => TWord
  | TNode l, TNode m => TNode (punion l m)
  | TOpt t, TOpt u => TOpt (join t u)
  | TRaw f l r, TRaw g m s => TRaw (punion f g) (punion l m) (punion r s)
  | TBar r, TBar s => TBar (punion r s)
  | TForeBar r, TForeBar s => TForeBar (punion r s)
  | TFore l r, TFore m s => TFore (punion l m) (punion r s)
  | TConn, TConn => TConn
  | TMo, TMo => TMo
  | TParen, TParen => TParen
  | TLU, TLU => TLU
  | _, _ => TAny
  end.

Definition ty_eq_dec (a b : ty) : {a = b} + {a <> b}.
Proof. decide equality; try apply (list_eq_dec shape_eq_dec); apply (list_eq_dec string_dec). Defined.

Definition sub (a b : ty) : bool := if ty_eq_dec (join a b) b then true else false.

(** ** Types of expressions *)

Definition is_empty_set (l : list string) : bool := forallb (String.eqb "") l.

Definition tcat (a b : ty) : ty :=
  match a, b with
  | TBot, _ | _, TBot => TBot
  | TSet l, TSet m => if is_empty_set l then TSet m else if is_empty_set m then TSet l else THead l
  | TSet l, THead m => if is_empty_set l then THead m else THead l
  | TSet l, TStr => if is_empty_set l then TStr else THead l
  | THead l, (TSet _ | THead _ | TStr) => THead l
  | TStr, (TSet _ | THead _ | TStr) => TStr
  | _, _ => TAny
  end.

Definition tplus (t : ty) : ty :=
  match t with
  | TBot => TBot
  | TSet l | THead l => THead l
  | TStr => TStr
  | TNode l => if within l items then TNode [SDiscourse] else TAny
  | _ => TAny
  end.

(** The types of an optional modifier, an optional word, ... *)
Definition mod_opt (t : ty) : bool :=
  match t with TOpt TBot => true | TOpt (TNode l) => within l mods | _ => false end.
Definition word_opt (t : ty) : bool :=
  match t with TOpt TBot | TOpt TWord => true | _ => false end.
Definition node_opt (m : list shape) (t : ty) : bool :=
  match t with TOpt TBot => true | TOpt (TNode l) => within l m | _ => false end.

(** The shapes of which every well-sorted node can take a modifier. *)
Definition modable (l : list shape) : bool := negb (in_dec_b shape_eq_dec SText l).

(** Single runes. *)
Definition one_rune (h : string) : bool := String.eqb h (encode_rune (fst (decode_rune h))).

(** [nd]: only texts without the digits 1 to 7 are considered. *)
Section Infer.

Variable nd : bool.

Definition diacritic_opt (t : N) (l : string) : option string :=
  match diacritic_of t l with Ok f => Some f | _ => None end.

Fixpoint all_some {A B} (f : A -> option B) (l : list A) : option (list B) :=
  match l with
  | [] => Some []
  | x :: l' => match f x, all_some f l' with Some y, Some r => Some (y :: r) | _, _ => None end
  end.

Definition can_add (ds ts : list string) : bool :=
  forallb (fun h => one_rune h &&
    forallb (fun t => match diacritic_opt (fst (decode_rune t)) h with Some _ => true | None => false end) ts) ds.

Definition guard (b : bool) (t : ty) : option ty := if b then Some t else None.

Definition is_bot (t : ty) : bool := match t with TBot => true | _ => false end.

Definition act_ty (a : act) (args : list ty) : option ty :=
  if existsb is_bot args then Some TBot else
  match a, args with
  | AId, [t] => Some t
  | AText, [s; d] => guard (mod_opt s && node_opt [SDiscourse] d) (TNode [SText])
  | AMod, [TWord; s] => guard (mod_opt s) TWord
  | AMod, [TNode l; s] => guard (mod_opt s && modable l) (TNode l)
  | ACoP k, [TRaw f l r] =>
      guard (within f (real_left k true) && within l (real_left k false) && within r (real_right k)) (TNode [SCoP k])
  | ALU k, [TLU] => guard (match k with LRaw => false | _ => true end) (TNode [SLU k])
  | AJE, [je; TNode l] => guard (word_opt je && within l [SSentence]) (TNode [SSentence])
  | ASentence, [TNode l; s; da] =>
      guard (within l statements && mod_opt s && word_opt da) (TNode [SSentence])
  | APrenexStmt, [p; TNode l] =>
      guard (node_opt [SPrenex] p && within l statements) (TNode (punion [SPrenexStmt] l))
  | AEndPredication, [TNode l; s; na] =>
      guard (within l [SPredication] && mod_opt s && word_opt na) (TNode [SPredication])
  | APredication, [TNode l; s; ts] =>
      guard (within l predicates && mod_opt s && node_opt [STerms] ts) (TNode [SPredication])
  | APrenex, [TNode l; s; TWord] => guard (within l [STerms] && mod_opt s) (TNode [SPrenex])
  | ATerms1, [TNode l] => guard (within l terms_) (TNode [STerms])
  | ATermsPrepend, [TNode l; s; TNode m] =>
      guard (within l terms_ && mod_opt s && within m [STerms]) (TNode [STerms])
  | ATerms2, [TNode l; s; TNode m] =>
      guard (within l terms_ && mod_opt s && within m terms_) (TNode [STerms])
  | ALinked, [g; TNode l] => guard (word_opt g && within l arguments) (TNode (punion [SLinked] l))
  | AFocus, [w; TNode l] => guard (word_opt w && within l [SPredArg]) (TNode [SPredArg])
  | AQuant, [w; TNode l] => guard (word_opt w && within l [SPredArg]) (TNode [SPredArg])
  | AArgRel, [TNode l; s; r] =>
      guard (within l [SPredArg] && mod_opt s && node_opt relatives r) (TNode [SPredArg])
  | AArg, [TNode l] => guard (within l predicates) (TNode [SPredArg])
  | APredRel, [TNode l; s; na] =>
      guard (within l [SPredication] && mod_opt s && word_opt na) (TNode [SPredRel])
  | APredContent, [TNode l; s; na] =>
      guard (within l [SPredication] && mod_opt s && word_opt na) (TNode [SPredContent])
  | AAdverb, [TNode l] => guard (within l predicates) (TNode [SAdverb])
  | APrep, [TNode l; s; TNode m] =>
      guard (within l predicates && mod_opt s && within m arguments) (TNode [SPrep])
  | AConnector, [TWord; s; TWord] => guard (mod_opt s) TConn
  | AForeCoP, [TConn; s; TFore l r] => guard (mod_opt s) (TRaw l [] r)
  | AForeLeft, [TNode l; s; TForeBar r] => guard (mod_opt s && modable l) (TFore l r)
  | AForeRight, [TWord; s; TNode r] => guard (mod_opt s) (TForeBar r)
  | ACopLeft, [TNode l; s; TBar r] => guard (mod_opt s && modable l) (TRaw [] l r)
  | ACopRight, [TWord; s; TNode r] => guard (mod_opt s) (TBar r)
  | AMiEnd, [TNode l; s; ga] => guard (within l [SMi] && mod_opt s && word_opt ga) (TNode [SMi])
  | AMi, [TWord; s; TNode l] => guard (mod_opt s && within l phrases) (TNode [SMi])
  | APoEnd, [TNode l; s; ga] => guard (within l [SPo] && mod_opt s && word_opt ga) (TNode [SPo])
  | APo, [TWord; s; TNode l] => guard (mod_opt s && within l arguments) (TNode [SPo])
  | AMoEnd, [TMo; s; TWord] => guard (mod_opt s) (TNode [SMo])
  | AMo, [TWord; s; TNode l] => guard (mod_opt s && within l [SDiscourse]) TMo
  | ASpace, [(TStr | TSet _ | THead _)] => Some (TNode [SSpace])
  | AEndParen, [TParen; s; TWord] => guard (mod_opt s) (TNode [SParen])
  | AParen, [TWord; s; TNode l] => guard (mod_opt s && within l [SDiscourse]) TParen
  | AIncidental, [TWord; s; TNode l] => guard (mod_opt s && within l statements) (TNode [SIncidental])
  | AVocative, [TWord; s; TNode l] => guard (mod_opt s && within l arguments) (TNode [SVocative])
  | AWordSpace, [(TStr | TSet _ | THead _); s] => guard (mod_opt s) TWord
  | AWord, [(TStr | TSet _ | THead _)] => Some TWord
  | AInterjection, [(TStr | TSet _ | THead _)] => Some (TNode [SInterjection])
  | AWordPredicate, [(TStr | TSet _ | THead _)] => Some (TNode [SWordPredicate])
  | ASerial, [TNode l; s; TNode m] =>
      guard (within l predicates && mod_opt s && within m predicates) (TNode [SSerial])
  | ALUPhrase, [TWord; s; TNode l] => guard (mod_opt s && within l statements) TLU
  | AEmpty, [] => Some (TSet [""])
  | ADotless, [TSet l] => Some (TSet (map (fun s => if String.eqb s "i" then "ı" else s) l))
  | ADiacritic t, [TSet l] =>
      match all_some (diacritic_opt t) l with Some m => Some (TSet m) | None => None end
  | AAddTone, [(TSet ds | THead ds); TSet ts] => guard (negb nd || can_add ds ts) TStr
  | _, _ => None
  end.

Variable rt : positive -> ty.

Fixpoint tget (l : nat) (te : tenv) : option ty :=
  match te with
  | [] => None
  | (l', t) :: te' => if Nat.eqb l l' then Some t else tget l te'
  end.

Definition digit17 (r : N) : bool := (N.leb 49 r && N.leb r 55)%bool.

Fixpoint infer (e : expr) : option (ty * tenv) :=
  match e with
  | ELit s => Some (TSet [s], [])
  | EClass rs =>
      if forallb (fun r => negb (N.eqb r rune_error)) rs then
        Some (TSet (map encode_rune (filter (fun r => negb (nd && digit17 r)) rs)), [])
      else Some (TStr, [])
  | EAny | EPunct => Some (TStr, [])
  | ECall r => Some (rt r, [])
  | ESeq a b =>
      match infer a, infer b with
      | Some (t1, e1), Some (t2, e2) => Some (tcat t1 t2, e1 ++ e2)
      | _, _ => None
      end
  | EChoice a b =>
      match infer a, infer b with
      | Some (t1, []), Some (t2, []) => Some (join t1 t2, [])
      | _, _ => None
      end
  | EPlus e1 => match infer e1 with Some (t, _) => Some (tplus t, []) | None => None end
  | EOpt e1 => match infer e1 with Some (t, _) => Some (TOpt t, []) | None => None end
  | EAnd e1 | ENot e1 => match infer e1 with Some _ => Some (TSet [""], []) | None => None end
  | ESub e1 => infer e1
  | ELabel l e1 => match infer e1 with Some (t, _) => Some (t, [(l, t)]) | None => None end
  | EAction a args e1 =>
      match infer e1 with
      | Some (_, te) =>
          match all_some (fun l => tget l te) args with
          | Some ts => match act_ty a ts with Some t => Some (t, []) | None => None end
          | None => None
          end
      | None => None
      end
  end.

End Infer.

Definition tmap : Type := PositiveMap.t ty.
Definition rt_of (m : tmap) (r : positive) : ty :=
  match PositiveMap.find r m with Some t => t | None => TBot end.

(** One round of the iteration, over all rules. *)
Definition round (nd : bool) (m : tmap) : tmap :=
  PositiveMap.fold (fun r ru m =>
    match infer nd (rt_of m) (r_body ru) with
    | Some (t, _) => PositiveMap.add r (join t (rt_of m r)) m
    | None => PositiveMap.add r TAny m
    end) rule_map m.

Fixpoint rounds (nd : bool) (n : nat) (m : tmap) : tmap :=
  match n with O => m | S n' => rounds nd n' (round nd m) end.

(** The types fit: the body of every rule has (at most) the type of the rule. *)
Definition fits (nd : bool) (m : tmap) : bool :=
  forallb (fun p => match infer nd (rt_of m) (r_body (snd p)) with
                    | Some (t, _) => sub t (rt_of m (fst p))
                    | None => false
                    end) (PositiveMap.elements rule_map).

Definition types_any : tmap := Eval vm_compute in rounds false 20 (PositiveMap.empty ty).
Definition types_nd : tmap := Eval vm_compute in rounds true 20 (PositiveMap.empty ty).
