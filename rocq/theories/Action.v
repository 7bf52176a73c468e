(** Model of the Action functions of /repo/ast/toaq.go and of the actions they run
    (toaq.peggy, nodes.go).

    The value of an action is one of the Go types that occur as rule results.  Go's
    static typing is not modelled: an action applied to a value of the wrong type gives
    [ill_typed], which ActionTypes.v shows unreachable for the rules of toaq.go.

    Not modelled: the identity of nodes, except that memo-table entries carry a serial
    number (see [a_hits]).  The only action that changes a value it was given is that of
    sentence_2 (toaq.peggy:42, se.JE = je); the value is that of sentence_3 at the same
    memo entry, which only sentence_2 reads, so updating a copy gives the same trees. *)

From Coq Require Import String Ascii NArith ZArith PArith List Bool FMapPositive.
From Verif Require Import Base Utf8 PegSyntax Peg Tone Ast.
Import ListNotations.
Open Scope string_scope.
Open Scope list_scope.
Open Scope res_scope.

(** Values of rules and labels. *)
Inductive val : Type :=
  | VStr (s : string)
  | VWord (w : word)                       (* Word, *Word *)
  | VNode (n : node)                       (* every type implementing Node; []Node and Discourse are [NDiscourse] *)
  | VOpt (o : option val)                  (* *T for the T? of an optional expression *)
  | VBar (ru : word) (r : node)            (* CoP{RU, Right}: copRight, nodes.go:84-86 *)
  | VForeBar (to1 : word) (r : node)       (* CoP{TO1, Right}: foreCoPRight, nodes.go:99-101 *)
  | VFore (to1 : word) (l r : node)        (* CoP{TO1, Left, Right}: foreCoPLeft, nodes.go:94-97 *)
  | VConn (to0 ru : word)                  (* CoP{TO0, RU}: connector, nodes.go:103-105 *)
  | VMo (mo : word) (d : list node)        (* MOPredicate without TEO, toaq.peggy:316 *)
  | VParen (kio : word) (d : list node)    (* Parenthetical without KI, toaq.peggy:337 *)
  | VUnit.                                 (* a value the Go code does not keep *)

Definition ill_typed {A} : res A := Panic (PString "ill-typed action").

(** x.modX(s) for a word. *)
Definition wmod (s : option val) (w : word) : res word :=
  match s with
  | None => mod_word None w
  | Some (VNode m) => mod_word (Some m) w
  | Some _ => ill_typed
  end.
Definition nmod (s : option val) (n : node) : res node :=
  match s with
  | None => mod_node None n
  | Some (VNode m) => mod_node (Some m) n
  | Some _ => ill_typed
  end.

(** An optional word. *)
Definition opt_word (o : option val) : res (option word) :=
  match o with
  | None => Ok None
  | Some (VWord w) => Ok (Some w)
  | Some _ => ill_typed
  end.
Definition opt_node (o : option val) : res (option node) :=
  match o with
  | None => Ok None
  | Some (VNode n) => Ok (Some n)
  | Some _ => ill_typed
  end.

(** nodes.go:69-73, endPredication. *)
Definition end_predication (p : node) (s : option val) (na : option val) : res node :=
  p' <- nmod s p ;;
  na' <- opt_word na ;;
  match p' with
  | NPredication pr ts _ => Ok (NPredication pr ts na')
  | _ => ill_typed
  end.

(** tone.Diacritic[t][l][0]; a missing map entry is nil, whose index 0 panics. *)
Definition diacritic_of (t : N) (l : string) : res string :=
  match lookup t diacritic with
  | None => runtime_panic
  | Some row =>
      match slookup l row with
      | Some (f :: _) => Ok f
      | _ => runtime_panic
      end
  end.

(** nodes.go:132-136, addTone. *)
Definition add_tone (des ton : string) : res string :=
  let t := fst (decode_rune ton) in
  let w := snd (decode_rune des) in
  f <- diacritic_of t (stake w des) ;;
  Ok (f ++ sdrop w des)%string.

(** The actions; [start] and [end_] are the byte offsets that the generated code passes,
    [args] the values of the labels of the action in order of their occurrence. *)
Definition run_act (a : act) (start end_ : nat) (args : list val) : res val :=
  match a, args with
  | AId, [v] => Ok v
  | AText, [VOpt s; VOpt d] =>                                  (* nodes.go:9-18 *)
      s' <- opt_node s ;;
      match d with
      | None => Ok (VNode (NText s' []))
      | Some (VNode (NDiscourse l)) => Ok (VNode (NText s' l))
      | Some _ => ill_typed
      end
  | AMod, [VWord w; VOpt s] => w' <- wmod s w ;; Ok (VWord w')
  | AMod, [VNode n; VOpt s] => n' <- nmod s n ;; Ok (VNode n')
  | ACoP k, [VNode (NCoP CRaw to0 to1 ru l r)] => Ok (VNode (NCoP k to0 to1 ru l r))
  | ALU k, [VNode (NLU LRaw lu st)] => Ok (VNode (NLU k lu st))
  | AJE, [VOpt je; VNode (NSentence _ st da)] =>                (* toaq.peggy:42 *)
      je' <- opt_word je ;; Ok (VNode (NSentence je' st da))
  | ASentence, [VNode st; VOpt s; VOpt da] =>                   (* toaq.peggy:46 *)
      st' <- nmod s st ;; da' <- opt_word da ;; Ok (VNode (NSentence None st' da'))
  | APrenexStmt, [VOpt None; VNode st] => Ok (VNode st)         (* nodes.go:20-25 *)
  | APrenexStmt, [VOpt (Some (VNode p)); VNode st] => Ok (VNode (NPrenexStmt p st))
  | AEndPredication, [VNode p; VOpt s; VOpt na] =>              (* nodes.go:69-73 *)
      p' <- end_predication p s na ;; Ok (VNode p')
  | APredication, [VNode p; VOpt s; VOpt ts] =>                 (* nodes.go:31-37 *)
      p' <- nmod s p ;;
      match ts with
      | None => Ok (VNode (NPredication p' None None))
      | Some (VNode (NTerms l)) => Ok (VNode (NPredication p' (Some l) None))
      | Some _ => ill_typed
      end
  | APrenex, [VNode ts; VOpt s; VWord bi] =>                    (* nodes.go:27-29 *)
      ts' <- nmod s ts ;;
      match ts' with
      | NTerms l => Ok (VNode (NPrenex l bi))
      | _ => ill_typed
      end
  | ATerms1, [VNode t] => Ok (VNode (NTerms [t]))               (* toaq.peggy:95 *)
  | ATermsPrepend, [VNode t; VOpt s; VNode (NTerms ts)] =>      (* toaq.peggy:97 *)
      t' <- nmod s t ;; Ok (VNode (NTerms (prepend ts [t'])))
  | ATerms2, [VNode l; VOpt s; VNode r] =>                      (* toaq.peggy:114 *)
      l' <- nmod s l ;; Ok (VNode (NTerms [l'; r]))
  | ALinked, [VOpt None; VNode a] => Ok (VNode a)               (* nodes.go:39-44 *)
  | ALinked, [VOpt (Some (VWord g)); VNode a] => Ok (VNode (NLinked g a))
  | AFocus, [VOpt ku; VNode (NPredArg _ q p rel)] =>            (* nodes.go:46-49 *)
      ku' <- opt_word ku ;; Ok (VNode (NPredArg ku' q p rel))
  | AQuant, [VOpt tu; VNode (NPredArg f _ p rel)] =>            (* nodes.go:51-54 *)
      tu' <- opt_word tu ;; Ok (VNode (NPredArg f tu' p rel))
  | AArgRel, [VNode a; VOpt s; VOpt rc] =>                      (* nodes.go:56-62 *)
      a' <- nmod s a ;; rc' <- opt_node rc ;;
      match a', rc' with
      | NPredArg f q p _, Some r => Ok (VNode (NPredArg f q p (Some r)))
      | NPredArg _ _ _ _, None => Ok (VNode a')
      | _, _ => ill_typed
      end
  | AArg, [VNode p] => Ok (VNode (NPredArg None None p None))   (* toaq.peggy:137 *)
  | APredRel, [VNode p; VOpt s; VOpt na] =>                     (* toaq.peggy:166 *)
      p' <- end_predication p s na ;; Ok (VNode (NPredRel p'))
  | APredContent, [VNode p; VOpt s; VOpt na] =>                 (* toaq.peggy:249 *)
      p' <- end_predication p s na ;; Ok (VNode (NPredContent p'))
  | AAdverb, [VNode p] => Ok (VNode (NAdverb p))                (* toaq.peggy:193 *)
  | APrep, [VNode p; VOpt s; VNode a] =>                        (* nodes.go:64-66 *)
      p' <- nmod s p ;; Ok (VNode (NPrep p' a))
  | AConnector, [VWord to; VOpt s; VWord ru] =>                 (* nodes.go:103-105 *)
      to' <- wmod s to ;; Ok (VConn to' ru)
  | AForeCoP, [VConn to0 ru; VOpt s; VFore to1 l r] =>          (* nodes.go:88-92 *)
      ru' <- wmod s ru ;; Ok (VNode (NCoP CRaw (Some to0) (Some to1) ru' l r))
  | AForeLeft, [VNode l; VOpt s; VForeBar to1 r] =>             (* nodes.go:94-97 *)
      l' <- nmod s l ;; Ok (VFore to1 l' r)
  | AForeRight, [VWord to; VOpt s; VNode r] =>                  (* nodes.go:99-101 *)
      to' <- wmod s to ;; Ok (VForeBar to' r)
  | ACopLeft, [VNode l; VOpt s; VBar ru r] =>                   (* nodes.go:79-82 *)
      l' <- nmod s l ;; Ok (VNode (NCoP CRaw None None ru l' r))
  | ACopRight, [VWord ru; VOpt s; VNode r] =>                   (* nodes.go:84-86 *)
      ru' <- wmod s ru ;; Ok (VBar ru' r)
  | AMiEnd, [VNode (NMi mi _ p); VOpt s; VOpt ga] =>            (* nodes.go:107-111 *)
      p' <- nmod s p ;; ga' <- opt_word ga ;; Ok (VNode (NMi mi ga' p'))
  | AMi, [VWord mi; VOpt s; VNode p] =>                         (* toaq.peggy:294 *)
      mi' <- wmod s mi ;; Ok (VNode (NMi mi' None p))
  | APoEnd, [VNode (NPo po _ a); VOpt s; VOpt ga] =>            (* nodes.go:113-117 *)
      a' <- nmod s a ;; ga' <- opt_word ga ;; Ok (VNode (NPo po ga' a'))
  | APo, [VWord po; VOpt s; VNode a] =>                         (* toaq.peggy:306 *)
      po' <- wmod s po ;; Ok (VNode (NPo po' None a))
  | AMoEnd, [VMo mo d; VOpt s; VWord teo] =>                    (* nodes.go:119-123 *)
      d' <- nmod s (NDiscourse d) ;;
      match d' with
      | NDiscourse l => Ok (VNode (NMo mo teo l))
      | _ => ill_typed
      end
  | AMo, [VWord mo; VOpt s; VNode (NDiscourse d)] =>            (* toaq.peggy:316 *)
      mo' <- wmod s mo ;; Ok (VMo mo' d)
  | ASpace, [VStr s] => Ok (VNode (NSpace (Wd s start end_ None)))  (* toaq.peggy:328 *)
  | AEndParen, [VParen kio d; VOpt s; VWord ki] =>              (* nodes.go:125-129 *)
      d' <- nmod s (NDiscourse d) ;;
      match d' with
      | NDiscourse l => Ok (VNode (NParen kio ki l))
      | _ => ill_typed
      end
  | AParen, [VWord kio; VOpt s; VNode (NDiscourse d)] =>        (* toaq.peggy:337 *)
      kio' <- wmod s kio ;; Ok (VParen kio' d)
  | AIncidental, [VWord ju; VOpt s; VNode st] =>                (* toaq.peggy:339 *)
      ju' <- wmod s ju ;; Ok (VNode (NIncidental ju' st))
  | AVocative, [VWord hu; VOpt s; VNode a] =>                   (* toaq.peggy:341 *)
      hu' <- wmod s hu ;; Ok (VNode (NVocative hu' a))
  | AWordSpace, [VStr w; VOpt s] =>                             (* toaq.peggy:347-351 *)
      w' <- wmod s (Wd w start end_ None) ;; Ok (VWord w')
  | AWord, [VStr w] => Ok (VWord (Wd w start end_ None))        (* toaq.peggy:369 *)
  | AInterjection, [VStr w] => Ok (VNode (NInterjection (Wd w start end_ None))) (* toaq.peggy:387 *)
  | AWordPredicate, [VStr w] => Ok (VNode (NWordPredicate (Wd w start end_ None))) (* toaq.peggy:352-355 *)
  | ASerial, [VNode l; VOpt s; VNode r] =>                      (* nodes.go:75-77 *)
      l' <- nmod s l ;; Ok (VNode (NSerial l' r))
  | ALUPhrase, [VWord lu; VOpt s; VNode st] =>                  (* toaq.peggy:285 *)
      lu' <- wmod s lu ;; Ok (VNode (NLU LRaw lu' st))
  | AEmpty, [] => Ok (VStr "")                                  (* toaq.peggy:433 *)
  | ADotless, [VStr l] => Ok (VStr (if String.eqb l "i" then "ı" else l))  (* toaq.peggy:535 *)
  | ADiacritic t, [VStr l] => f <- diacritic_of t l ;; Ok (VStr f) (* toaq.peggy:465 *)
  | AAddTone, [VStr d; VStr t] => s <- add_tone d t ;; Ok (VStr s) (* toaq.peggy:419 *)
  | _, _ => ill_typed
  end.

(** The value of a sequence: strings are concatenated ("node, node0 = node+node0"), other
    sequences only matter for their labels. *)
Definition vcat (a b : val) : val :=
  match a, b with
  | VStr s, VStr t => VStr (s ++ t)
  | _, _ => VUnit
  end.

(** One more element of "e+": string concatenation or append to a []Node. *)
Definition vplus (acc v : val) : val :=
  match acc, v with
  | VStr s, VStr t => VStr (s ++ t)
  | VNode (NDiscourse l), VNode n => VNode (NDiscourse (l ++ [n]))
  | _, _ => VUnit
  end.
Definition vplus0 (v : val) : val :=
  match v with
  | VStr s => VStr s
  | VNode n => VNode (NDiscourse [n])
  | _ => VUnit
  end.

(** The labels set by an expression, in order of their occurrence in it. *)
Definition env : Type := list (nat * val).

Fixpoint get_label (l : nat) (en : env) : option val :=
  match en with
  | [] => None
  | (l', v) :: en' => if Nat.eqb l l' then Some v else get_label l en'
  end.

Fixpoint get_labels (ls : list nat) (en : env) : option (list val) :=
  match ls with
  | [] => Some []
  | l :: ls' =>
      match get_label l en, get_labels ls' en with
      | Some v, Some vs => Some (v :: vs)
      | _, _ => None
      end
  end.

Definition run_action (a : act) (args : list nat) (start end_ : nat) (en : env) : res val :=
  match get_labels args en with
  | Some vs => run_act a start end_ vs
  | None => ill_typed
  end.

(** parser.act (toaq.go:425).  Every entry has a serial number, [a_next] is the next one
    and [a_hits] lists the numbers of the entries found by lookups since it was last
    emptied: the values the pass took over instead of building them. *)
Record ast_ : Type := Ast { a_map : map2 (N * val); a_next : N; a_hits : list N }.
Definition ast0 : ast_ := Ast m2_empty 0 [].

(** Outcome of an expression: failure, a panic, or new position, value and labels. *)
Inductive aout (A : Type) : Type :=
  | AFail
  | APanic (p : panic_value)
  | AOk (pos : nat) (a : A).
Arguments AFail {A}.
Arguments APanic {A} p.
Arguments AOk {A} pos a.

Definition acres : Type := option (aout (val * env) * ast_).

Section Action.

Variable G : positive -> rule.
Variable is_punct : N -> bool.
Variable text : string.

Definition leaf_ok (i j : nat) (st : ast_) : acres :=
  Some (AOk j (VStr (slice text i j), []), st).

(** Code emitted for an expression in an Action function; [call] is the Action function
    of a rule.  See toaq.go:647-676 (call, label, action), 1397 (plus, choice), and
    _punctuationAction, _spaceAction, _boundaryAction.  In the Go code an optional string
    is a string, here a [VOpt]; no such value is used (only in &( tone? boundary )). *)
Fixpoint ac (call : positive -> nat -> ast_ -> option (aout val * ast_))
    (e : expr) (pos : nat) (st : ast_) {struct e} : acres :=
  match e with
  | ELit s =>
      if has_lit text s pos then leaf_ok pos (pos + String.length s)%nat st
      else Some (AFail, st)
  | EClass rs =>
      let (r, w) := next text pos in
      if mem_rune r rs then leaf_ok pos (pos + w)%nat st else Some (AFail, st)
  | EAny =>
      if any_ok text pos then leaf_ok pos (pos + snd (next text pos))%nat st
      else Some (AFail, st)
  | EPunct =>
      if any_ok text pos then
        let (r, w) := next text pos in
        if is_punct r then leaf_ok pos (pos + w)%nat st else Some (AFail, st)
      else Some (AFail, st)
  | ECall r =>
      match call r pos st with
      | None => None
      | Some (AFail, st1) => Some (AFail, st1)
      | Some (APanic p, st1) => Some (APanic p, st1)
      | Some (AOk p v, st1) => Some (AOk p (v, []), st1)
      end
  | ESeq a b =>
      match ac call a pos st with
      | Some (AOk p1 (v1, en1), st1) =>
          match ac call b p1 st1 with
          | Some (AOk p2 (v2, en2), st2) => Some (AOk p2 (vcat v1 v2, en1 ++ en2), st2)
          | x => x
          end
      | x => x
      end
  | EChoice a b =>
      match ac call a pos st with
      | Some (AFail, st1) => ac call b pos st1
      | x => x
      end
  | EPlus e1 =>
      match ac call e1 pos st with
      | Some (AOk p1 (v1, _), st1) =>
          (fix loop (n : nat) (pos : nat) (v : val) (st : ast_) {struct n} : acres :=
             match n with
             | O => None
             | S n' =>
                 match ac call e1 pos st with
                 | Some (AOk p1 (v1, _), st1) => loop n' p1 (vplus v v1) st1
                 | Some (AFail, st1) => Some (AOk pos (v, []), st1)
                 | x => x
                 end
             end) (S (String.length text)) p1 (vplus0 v1) st1
      | x => x
      end
  | EOpt e1 =>
      match ac call e1 pos st with
      | Some (AOk p (v, _), st1) => Some (AOk p (VOpt (Some v), []), st1)
      | Some (AFail, st1) => Some (AOk pos (VOpt None, []), st1)
      | x => x
      end
  | EAnd e1 =>
      match ac call e1 pos st with
      | Some (AOk _ _, st1) => Some (AOk pos (VStr "", []), st1)
      | x => x
      end
  | ENot e1 =>
      match ac call e1 pos st with
      | Some (AOk _ _, st1) => Some (AFail, st1)
      | Some (AFail, st1) => Some (AOk pos (VStr "", []), st1)
      | x => x
      end
  | ESub e1 => ac call e1 pos st
  | ELabel l e1 =>
      match ac call e1 pos st with
      | Some (AOk p (v, _), st1) => Some (AOk p (v, [(l, v)]), st1)
      | x => x
      end
  | EAction a args e1 =>
      match ac call e1 pos st with
      | Some (AOk p (_, en), st1) =>
          match run_action a args pos p en with
          | Ok v => Some (AOk p (v, []), st1)
          | Panic q => Some (APanic q, st1)
          | NoFuel => None
          end
      | x => x
      end
  end.

(** The Action function of a rule, e.g. toaq.go:647-676.  As for Node, a memoised value
    whose deltaPos is 0 would give position start-1. *)
Fixpoint action_of (ds : mst) (fuel : nat) (r : positive) (start : nat) (st : ast_)
    : option (aout val * ast_) :=
  match fuel with
  | O => None
  | S fuel' =>
      let dp := fst (delta ds r start) in
      if (dp <? 0)%Z then Some (AFail, st)
      else match m2_get (a_map st) r start with
      | Some (id, v) =>
          Some (AOk (Z.to_nat (Z.of_nat start + (dp - 1))) v,
                Ast (a_map st) (a_next st) (id :: a_hits st))
      | None =>
          match ac (action_of ds fuel') (r_body (G r)) start st with
          | None => None
          | Some (AOk pos (v, _), st1) =>
              Some (AOk pos v,
                    Ast (m2_set (a_map st1) r start (a_next st1, v)) (N.succ (a_next st1)) (a_hits st1))
          | Some (AFail, st1) => Some (AFail, st1)
          | Some (APanic p, st1) => Some (APanic p, st1)
          end
      end
  end.

End Action.
