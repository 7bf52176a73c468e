(** Model of the AST of /repo/ast/ast.go and of its mod, Start and End methods.

    Go pointers to nodes are the nodes themselves: two pointers to one node are not
    distinguished, and a tree is never cyclic.  Fields that the Go code allows to be
    nil are options; every other field of interface or pointer type is taken to be
    non-nil. *)

From Coq Require Import String List.
From Verif Require Import Base PegSyntax.
Import ListNotations.
Open Scope res_scope.

(** The node types of ast.go, in the order of the file.  [NCoP] and [NLU] stand for
    CoP, LUPhrase and the types declared as them (their kinds are in PegSyntax.v);
    [NWord] is a *Word used as a Node.  PrenexStatement.Prenex and the Predication
    embedded in PredicationRelative and PredicationContent are nodes here.
    Predication.Terms distinguishes nil ([None]) from a slice. *)
Inductive node : Type :=
  | NText (leading : option node) (d : list node)                  (* ast.go:32-35 *)
  | NDiscourse (d : list node)                                      (* ast.go:42 *)
  | NSentence (je : option word) (st : node) (da : option word)     (* ast.go:73-77 *)
  | NPrenex (ts : list node) (bi : word)                            (* ast.go:112-115 *)
  | NPrenexStmt (p : node) (st : node)                              (* ast.go:138-141 *)
  | NPredication (p : node) (ts : option (list node)) (na : option word) (* ast.go:154-158 *)
  | NPrefixed (mu : word) (p : node)                                (* ast.go:196-199 *)
  | NSerial (l r : node)                                            (* ast.go:212-214 *)
  | NWordPredicate (w : word)                                       (* ast.go:227 *)
  | NMi (mi : word) (ga : option word) (phrase : node)              (* ast.go:244-248 *)
  | NPo (po : word) (ga : option word) (arg : node)                 (* ast.go:265-269 *)
  | NMo (mo teo : word) (d : list node)                             (* ast.go:286-289 *)
  | NLinked (go : word) (arg : node)                                (* ast.go:327-330 *)
  | NTerms (ts : list node)                                         (* ast.go:342 *)
  | NPredArg (focus quant : option word) (p : node) (rel : option node) (* ast.go:390-396 *)
  | NPredRel (p : node)                                             (* ast.go:448 *)
  | NAdverb (p : node)                                              (* ast.go:489 *)
  | NPrep (p arg : node)                                            (* ast.go:527-530 *)
  | NPredContent (p : node)                                         (* ast.go:567 *)
  | NParen (kio ki : word) (d : list node)                          (* ast.go:611-614 *)
  | NIncidental (ju : word) (st : node)                             (* ast.go:627-630 *)
  | NVocative (hu : word) (arg : node)                              (* ast.go:643-646 *)
  | NInterjection (w : word)                                        (* ast.go:659 *)
  | NSpace (w : word)                                               (* ast.go:669 *)
  | NCoP (k : copkind) (to0 to1 : option word) (ru : word) (l r : node) (* ast.go:684-688 *)
  | NLU (k : lukind) (lu : word) (st : node)                        (* ast.go:700-703 *)
  | NWord (w : word)                                                (* ast.go:715-719 *)
with word : Type :=
  | Wd (t : string) (s e : nat) (m : option node).                  (* ast.go:715-719 *)

Definition w_t (w : word) : string := match w with Wd t _ _ _ => t end.
Definition w_s (w : word) : nat := match w with Wd _ s _ _ => s end.
Definition w_e (w : word) : nat := match w with Wd _ _ e _ => e end.
Definition w_m (w : word) : option node := match w with Wd _ _ _ m => m end.

(** The dynamic types that implement Sentence (ast.go:66-70: StatementSentence,
    CoPSentence) and Fragment (ast.go:106-109: the types with a modFragment method);
    used by the type assertions of Discourse.mod. *)
Definition is_sentence (n : node) : bool :=
  match n with
  | NSentence _ _ _ | NCoP CSentence _ _ _ _ _ => true
  | _ => false
  end.
Definition is_fragment (n : node) : bool :=
  match n with
  | NPrenex _ _ | NTerms _
  | NPredRel _ | NLU LRelative _ _ | NCoP CRelative _ _ _ _ _
  | NParen _ _ _ | NIncidental _ _ | NVocative _ _ | NInterjection _ | NSpace _ => true
  | _ => false
  end.

Definition runtime_panic {A} : res A := Panic PRuntime.

(** Replace the last element of a slice c of length l: c[l-1] = f(c[l-1]); an empty
    slice panics. *)
Section MapLast.
Context {A : Type} (f : A -> res A).
Fixpoint map_last (l : list A) : res (list A) :=
  match l with
  | [] => runtime_panic
  | x :: l' =>
      match l' with
      | [] => y <- f x ;; Ok [y]
      | _ => l'' <- map_last l' ;; Ok (x :: l'')
      end
  end.
End MapLast.

(** ast.go:49-59, Discourse.mod: a last element that is neither a Sentence nor a
    Fragment panics. *)
Definition discourse_mod (f : node -> res node) (d : list node) : res (list node) :=
  map_last (fun n => if (is_sentence n || is_fragment n)%bool then f n else runtime_panic) d.

(** ast.go:349-358, Terms.mod. *)
Definition terms_mod (m : option node) (f : node -> res node) (l : list node) : res (list node) :=
  match m with
  | None => Ok l
  | Some _ => map_last f l
  end.

(** ** mod

    [mod_node m n] is n.modX(m) for whichever of the modX methods n has: all of them
    do the same and differ only in their static result type.  [m] is the *Mod
    argument. *)
Section Mod.
Variable m : option node.

Fixpoint mod_node (n : node) : res node :=
  match n with
  | NText ld d =>                                        (* ast.go:39 *)
      d' <- discourse_mod mod_node d ;; Ok (NText ld d')
  | NDiscourse d =>                                      (* ast.go:49-59 *)
      d' <- discourse_mod mod_node d ;; Ok (NDiscourse d')
  | NSentence je st da =>                                (* ast.go:83-90 *)
      match da with
      | Some w => w' <- mod_word w ;; Ok (NSentence je st (Some w'))
      | None => st' <- mod_node st ;; Ok (NSentence je st' None)
      end
  | NPrenex ts bi =>                                     (* ast.go:122-125 *)
      bi' <- mod_word bi ;; Ok (NPrenex ts bi')
  | NPrenexStmt p st =>                                  (* ast.go:148-151 *)
      st' <- mod_node st ;; Ok (NPrenexStmt p st')
  | NPredication p ts na =>                              (* ast.go:165-174 *)
      match na, ts with
      | Some w, _ => w' <- mod_word w ;; Ok (NPredication p ts (Some w'))
      | None, Some l => l' <- terms_mod m mod_node l ;; Ok (NPredication p (Some l') None)
      | None, None => p' <- mod_node p ;; Ok (NPredication p' None None)
      end
  | NPrefixed mu p => p' <- mod_node p ;; Ok (NPrefixed mu p')   (* ast.go:206-209 *)
  | NSerial l r => r' <- mod_node r ;; Ok (NSerial l r')         (* ast.go:221-224 *)
  | NWordPredicate w => w' <- mod_word w ;; Ok (NWordPredicate w') (* ast.go:234 *)
  | NMi mi ga p =>                                       (* ast.go:255-262 *)
      match ga with
      | Some w => w' <- mod_word w ;; Ok (NMi mi (Some w') p)
      | None => p' <- mod_node p ;; Ok (NMi mi None p')
      end
  | NPo po ga a =>                                       (* ast.go:276-283 *)
      match ga with
      | Some w => w' <- mod_word w ;; Ok (NPo po (Some w') a)
      | None => a' <- mod_node a ;; Ok (NPo po None a')
      end
  | NMo mo teo d => teo' <- mod_word teo ;; Ok (NMo mo teo' d)   (* ast.go:295 *)
  | NLinked go a => a' <- mod_node a ;; Ok (NLinked go a')       (* ast.go:336-339 *)
  | NTerms ts => ts' <- terms_mod m mod_node ts ;; Ok (NTerms ts')          (* ast.go:349-358 *)
  | NPredArg f q p rel =>                                (* ast.go:417-424 *)
      match rel with
      | Some r => r' <- mod_node r ;; Ok (NPredArg f q p (Some r'))
      | None => p' <- mod_node p ;; Ok (NPredArg f q p' None)
      end
  | NPredRel p => p' <- mod_node p ;; Ok (NPredRel p')           (* ast.go:453-456 *)
  | NAdverb p => p' <- mod_node p ;; Ok (NAdverb p')             (* ast.go:495-498 *)
  | NPrep p a => a' <- mod_node a ;; Ok (NPrep p a')             (* ast.go:538-541 *)
  | NPredContent p => p' <- mod_node p ;; Ok (NPredContent p')   (* ast.go:574-577 *)
  | NParen kio ki d => d' <- discourse_mod mod_node d ;; Ok (NParen kio ki d') (* ast.go:621-624 *)
  | NIncidental ju st => st' <- mod_node st ;; Ok (NIncidental ju st') (* ast.go:637-640 *)
  | NVocative hu a => a' <- mod_node a ;; Ok (NVocative hu a')   (* ast.go:653-656 *)
  | NInterjection w => w' <- mod_word w ;; Ok (NInterjection w') (* ast.go:666 *)
  | NSpace w => w' <- mod_word w ;; Ok (NSpace w')               (* ast.go:676 *)
  | NCoP k to0 to1 ru l r => r' <- mod_node r ;; Ok (NCoP k to0 to1 ru l r') (* ast.go:694-697 *)
  | NLU k lu st => st' <- mod_node st ;; Ok (NLU k lu st')       (* ast.go:709-712 *)
  | NWord w => w' <- mod_word w ;; Ok (NWord w')
  end
(* Word.mod, ast.go:727-737 *)
with mod_word (w : word) : res word :=
  match w with
  | Wd t s e wm =>
      match m with
      | None => Ok w
      | Some _ =>
          match wm with
          | None => Ok (Wd t s e m)
          | Some n => n' <- mod_node n ;; Ok (Wd t s e (Some n'))
          end
      end
  end.

End Mod.

(** ast.go:361-367, Terms.Prepend. *)
Definition prepend (n ts : list node) : list node := ts ++ n.

(** ** Start and End *)

Definition first {A} (f : A -> res nat) (l : list A) : res nat :=
  match l with [] => runtime_panic | x :: _ => f x end.

Section Last.
Context {A : Type} (f : A -> res nat).
Fixpoint last_of (l : list A) : res nat :=
  match l with
  | [] => runtime_panic
  | x :: l' => match l' with [] => f x | _ => last_of l' end
  end.
End Last.

(** ast.go:739-744, start, and ast.go:746-751, end, for w not nil. *)
Definition word_start (w : word) : res nat := Ok (w_s w).
Definition word_end (w : word) : res nat := Ok (w_e w).

(** The Start methods. *)
Fixpoint node_start (n : node) : res nat :=
  match n with
  | NText _ d => first node_start d                     (* ast.go:37 *)
  | NDiscourse d => first node_start d                  (* ast.go:44 *)
  | NSentence (Some w) _ _ => word_start w              (* ast.go:79 *)
  | NSentence None st _ => node_start st
  | NPrenex ts _ => first node_start ts                 (* ast.go:117 *)
  | NPrenexStmt p _ => node_start p                     (* ast.go:143 *)
  | NPredication p _ _ => node_start p                  (* ast.go:160 *)
  | NPrefixed mu _ => word_start mu                     (* ast.go:201 *)
  | NSerial l _ => node_start l                         (* ast.go:216 *)
  | NWordPredicate w => word_start w                    (* ast.go:230 *)
  | NMi mi _ _ => word_start mi                         (* ast.go:250 *)
  | NPo po _ _ => word_start po                         (* ast.go:271 *)
  | NMo mo _ _ => word_start mo                         (* ast.go:291 *)
  | NLinked go _ => word_start go                       (* ast.go:332 *)
  | NTerms ts => first node_start ts                    (* ast.go:344 *)
  | NPredArg (Some w) _ _ _ => word_start w             (* ast.go:398-403 *)
  | NPredArg None (Some w) _ _ => word_start w
  | NPredArg None None p _ => node_start p
  | NPredRel p => node_start p                          (* promoted, ast.go:448 *)
  | NAdverb p => node_start p                           (* promoted, ast.go:489 *)
  | NPrep p _ => node_start p                           (* ast.go:532 *)
  | NPredContent p => node_start p                      (* promoted, ast.go:567 *)
  | NParen kio _ _ => word_start kio                    (* ast.go:616 *)
  | NIncidental ju _ => word_start ju                   (* ast.go:632 *)
  | NVocative hu _ => word_start hu                     (* ast.go:648 *)
  | NInterjection w => word_start w                     (* ast.go:662 *)
  | NSpace w => word_start w                            (* ast.go:672 *)
  | NCoP _ (Some w) _ _ _ _ => word_start w             (* ast.go:690 *)
  | NCoP _ None _ _ l _ => node_start l
  | NLU _ lu _ => word_start lu                         (* ast.go:705 *)
  | NWord w => word_start w                             (* ast.go:722 *)
  end.

(** The End methods. *)
Fixpoint node_end (n : node) : res nat :=
  match n with
  | NText _ d => last_of node_end d                     (* ast.go:38 *)
  | NDiscourse d => last_of node_end d                  (* ast.go:45 *)
  | NSentence _ _ (Some w) => word_end w                (* ast.go:80 *)
  | NSentence _ st None => node_end st
  | NPrenex _ bi => word_end bi                         (* ast.go:118 *)
  | NPrenexStmt _ st => node_end st                     (* ast.go:144 *)
  | NPredication _ _ (Some w) => word_end w             (* ast.go:161 *)
  | NPredication _ (Some ts) None => last_of node_end ts (* ast.go:161 *)
  | NPredication _ None None => runtime_panic           (* n[len(n)-1] of a nil Terms *)
  | NPrefixed _ p => node_end p                         (* ast.go:202 *)
  | NSerial _ r => node_end r                           (* ast.go:217 *)
  | NWordPredicate w => word_end w                      (* ast.go:231 *)
  | NMi _ (Some w) _ => word_end w                      (* ast.go:251 *)
  | NMi _ None p => node_end p
  | NPo _ (Some w) _ => word_end w                      (* ast.go:272 *)
  | NPo _ None a => node_end a
  | NMo _ teo _ => word_end teo                         (* ast.go:292 *)
  | NLinked _ a => node_end a                           (* ast.go:333 *)
  | NTerms ts => last_of node_end ts                    (* ast.go:345 *)
  | NPredArg _ _ _ (Some r) => node_end r               (* ast.go:405-410 *)
  | NPredArg _ _ p None => node_end p
  | NPredRel p => node_end p
  | NAdverb p => node_end p
  | NPrep _ a => node_end a                             (* ast.go:533 *)
  | NPredContent p => node_end p
  | NParen _ ki _ => word_end ki                        (* ast.go:617 *)
  | NIncidental _ st => node_end st                     (* ast.go:633 *)
  | NVocative _ a => node_end a                         (* ast.go:649 *)
  | NInterjection w => word_end w                       (* ast.go:663 *)
  | NSpace w => word_end w                              (* ast.go:673 *)
  | NCoP _ _ _ _ _ r => node_end r                      (* ast.go:691 *)
  | NLU _ _ st => node_end st                           (* ast.go:706 *)
  | NWord w => word_end w                               (* ast.go:723 *)
  end.
