(** Kinds of the values of the actions, computed from the grammar: the tones of strings and
    words, and the roles of nodes (Roles.v).  RoleFacts.v shows that they are right. *)

From Coq Require Import String Ascii Arith NArith PArith List Bool FMapPositive.
From Verif Require Import Base Utf8 PegSyntax Grammar Peg PegToaq Tone ToneFacts Ast Action Roles.
Import ListNotations.
Open Scope string_scope.
Open Scope list_scope.

Inductive kind : Type :=
  | KBot                              (* no value *)
  | KAny
  | KPlain                            (* a string without tones *)
  | KMark (t : N)                     (* a string whose first rune is [t] or not the name of a tone *)
  | KToned (t : N)                    (* a string whose first marked rune has tone [t] *)
  | KWord (t : N)
  | KNode (r : option (list N))       (* a node in the role [r], or in every role *)
  | KTerms (n : nat)                  (* a list of [n] terms *)
  | KDisc                             (* a discourse *)
  | KOpt (k : kind)
  | KRaw (l r : kind) | KBar (r : kind) | KForeBar (r : kind) | KFore (l r : kind)
  | KConn | KMo (t : N) | KParen | KLU (t : N).

Definition kind_eq_dec (a b : kind) : {a = b} + {a <> b}.
Proof. decide equality; try apply N.eq_dec; try apply Nat.eq_dec. decide equality. apply (list_eq_dec N.eq_dec). Defined.
Definition keq (a b : kind) : bool := if kind_eq_dec a b then true else false.

Definition incl_n (a b : list N) : bool := forallb (fun x => existsb (N.eqb x) b) a.

(** [a] is a kind of [b]. *)
Fixpoint ksub (a b : kind) : bool :=
  match a, b with
  | KBot, _ | _, KAny => true
  | KNode None, KNode _ => true
  | KNode (Some r), KNode (Some s) => incl_n r s
  | KTerms _, KNode _ | KDisc, KNode _ => true
  | KOpt a, KOpt b => ksub a b
  | KRaw a b, KRaw c d | KFore a b, KFore c d => ksub a c && ksub b d
  | KBar a, KBar b | KForeBar a, KForeBar b => ksub a b
  | _, _ => keq a b
  end.

(** Two alternatives. *)
Definition kjoin (a b : kind) : kind :=
  if ksub a b then b else if ksub b a then a else
  match a, b with
  | KTerms _, KTerms _ => KNode None
  | KOpt (KTerms _), KOpt (KTerms _) => KOpt (KNode None)
  | _, _ => KAny
  end.

Definition free (r : N) : bool := valid_rune r && negb (marked r).
Definition has_tone (t r : N) : bool :=
  valid_rune r && existsb (fun p => N.eqb (fst p) r && N.eqb (snd p) t) (tone_map diacritic).
Definition tone_names (rs : list N) : list N :=
  filter (fun r => match lookup r diacritic with Some _ => true | None => false end) rs.

Definition class_kind (rs : list N) : kind :=
  match rs with
  | [] => KBot
  | r :: _ =>
      let t := tone_of tables0 r in
      if existsb (N.eqb rune_error) rs then KAny
      else if forallb free rs then KPlain
      else if forallb (has_tone t) rs then KToned t
      else if forallb valid_rune rs then match tone_names rs with [t] => KMark t | _ => KAny end
      else KAny
  end.

Definition is_string (k : kind) : bool :=
  match k with KPlain | KMark _ | KToned _ => true | _ => false end.
Definition kcat (a b : kind) : kind :=
  match a, b with
  | KBot, _ | _, KBot => KBot
  | KPlain, KPlain => KPlain
  | KPlain, KToned t => KToned t
  | KToned t, _ => if is_string b then KToned t else KAny
  | _, _ => KAny
  end.
Definition kplus (k : kind) : kind :=
  match k with
  | KBot => KBot
  | KPlain => KPlain
  | KToned t => KToned t
  | KNode None | KTerms _ => KDisc
  | _ => KAny
  end.

Definition kguard (b : bool) (k : kind) : kind := if b then k else KAny.
Definition vb : list N := [verb_t].
(** A node in the role [r]. *)
Definition knode (r : list N) (k : kind) : bool := ksub k (KNode (Some r)).
(** An optional modifier, an optional word without tone, an optional node. *)
Definition kmod (k : kind) : bool := ksub k (KOpt (KNode None)).
Definition kword0 (k : kind) : bool := ksub k (KOpt (KWord no_tone)).

Definition kact (a : act) (args : list kind) : kind :=
  if existsb (keq KBot) args then KBot else
  match a, args with
  | AId, [k] => k
  | AText, [s; d] => kguard (kmod s && kmod d) (KNode None)
  | AMod, [KWord t; s] => kguard (kmod s) (KWord t)
  | AMod, [KNode r; s] => kguard (kmod s) (KNode r)
  | AMod, [KTerms n; s] => kguard (kmod s) (KTerms n)
  | ACoP CRaw, _ => KAny
  | ACoP CPredicate, [KRaw (KNode None) b] => kguard (knode vb b) (KNode None)
  | ACoP CPredicate, [KRaw (KNode (Some r)) b] => kguard (knode (right_role r) b) (KNode (Some r))
  | ACoP CTermSet, [KRaw (KTerms a) (KTerms b)] =>
      kguard (Nat.eqb a b && Nat.leb 2 a && Nat.leb a 5) (KNode None)
  | ACoP CTermSet, _ => KAny
  | ACoP CPredicate, _ => KAny
  | ACoP _, [KRaw a b] => kguard (knode vb a && knode vb b) (KNode None)
  | ALU LRelative, [KLU t] => kguard (N.eqb t relative_t) (KNode None)
  | ALU LContent, [KLU t] => kguard (N.eqb t content_t) (KNode None)
  | ALU LPredicate, [KLU t] => KNode (Some [t])
  | AJE, [je; KNode None] => kguard (kword0 je) (KNode None)
  | ASentence, [st; s; da] => kguard (knode vb st && kmod s && kword0 da) (KNode None)
  | APrenexStmt, [p; st] => kguard (kmod p && knode vb st) (KNode (Some vb))
  | AEndPredication, [KNode r; s; na] => kguard (kmod s && kword0 na) (KNode r)
  | APredication, [KNode r; s; ts] => kguard (kmod s && kmod ts) (KNode r)
  | APrenex, [ts; s; KWord t] => kguard (knode vb ts && kmod s && N.eqb t no_tone) (KNode None)
  | ATerms1, [t] => kguard (knode vb t) (KTerms 1)
  | ATermsPrepend, [t; s; KTerms n] => kguard (knode vb t && kmod s) (KTerms (S n))
  | ATermsPrepend, [t; s; KNode None] => kguard (knode vb t && kmod s) (KNode None)
  | ATerms2, [t; s; u] => kguard (knode vb t && kmod s && knode vb u) (KTerms 2)
  | ALinked, [g; KNode None] => kguard (kword0 g) (KNode None)
  | AFocus, [w; KNode None] => kguard (kword0 w) (KNode None)
  | AQuant, [w; KNode None] => kguard (kword0 w) (KNode None)
  | AArgRel, [KNode None; s; rel] => kguard (kmod s && kmod rel) (KNode None)
  | AArg, [p] => kguard (knode [arg_t] p) (KNode None)
  | APredRel, [p; s; na] => kguard (knode [relative_t] p && kmod s && kword0 na) (KNode None)
  | APredContent, [p; s; na] => kguard (knode [content_t] p && kmod s && kword0 na) (KNode None)
  | AAdverb, [p] => kguard (knode [adverb_t] p) (KNode None)
  | APrep, [p; s; a] => kguard (knode [prep_t] p && kmod s && knode vb a) (KNode None)
  | AConnector, [KWord t; s; KWord u] => kguard (N.eqb t no_tone && kmod s && N.eqb u no_tone) KConn
  | AForeCoP, [KConn; s; KFore a b] => kguard (kmod s) (KRaw a b)
  | AForeLeft, [(KNode _ | KTerms _) as a; s; KForeBar b] => kguard (kmod s) (KFore a b)
  | AForeRight, [KWord t; s; (KNode _ | KTerms _) as b] => kguard (N.eqb t no_tone && kmod s) (KForeBar b)
  | ACopLeft, [(KNode _ | KTerms _) as a; s; KBar b] => kguard (kmod s) (KRaw a b)
  | ACopRight, [KWord t; s; (KNode _ | KTerms _) as b] => kguard (N.eqb t no_tone && kmod s) (KBar b)
  | AMiEnd, [KNode r; s; ga] => kguard (kmod s && kword0 ga) (KNode r)
  | AMi, [KWord t; s; p] => kguard (kmod s && knode vb p) (KNode (Some [t]))
  | APoEnd, [KNode r; s; ga] => kguard (kmod s && kword0 ga) (KNode r)
  | APo, [KWord t; s; p] => kguard (kmod s && knode vb p) (KNode (Some [t]))
  | AMoEnd, [KMo t; s; KWord u] => kguard (kmod s && N.eqb u no_tone) (KNode (Some [t]))
  | AMo, [KWord t; s; d] => kguard (kmod s && knode vb d) (KMo t)
  | ASpace, [k] => KNode None
  | AEndParen, [KParen; s; KWord t] => kguard (kmod s && N.eqb t no_tone) (KNode None)
  | AParen, [KWord t; s; d] => kguard (kmod s && knode vb d && N.eqb t no_tone) KParen
  | AIncidental, [KWord t; s; st] => kguard (kmod s && knode vb st && N.eqb t no_tone) (KNode None)
  | AVocative, [KWord t; s; st] => kguard (kmod s && knode vb st && N.eqb t no_tone) (KNode None)
  | AWord, [KPlain] => KWord no_tone
  | AWord, [KToned t] => KWord t
  | AInterjection, [KPlain] => KNode None
  | AWordPredicate, [KToned t] => KNode (Some [t])
  | ASerial, [KNode r; s; b] => kguard (kmod s && knode vb b) (KNode r)
  | ALUPhrase, [KWord t; s; st] => kguard (kmod s && knode vb st) (KLU t)
  | AEmpty, [] => KPlain
  | ADotless, [KPlain] => KPlain
  | ADiacritic t, [_] => KToned t
  | AAddTone, [_; KMark t] => KToned t
  | _, _ => KAny
  end.

Definition kenv : Type := list (nat * kind).
Fixpoint kget (l : nat) (te : kenv) : option kind :=
  match te with
  | [] => None
  | (l', t) :: te' => if Nat.eqb l l' then Some t else kget l te'
  end.
Fixpoint kgets (ls : list nat) (te : kenv) : option (list kind) :=
  match ls with
  | [] => Some []
  | l :: ls' => match kget l te, kgets ls' te with Some k, Some ks => Some (k :: ks) | _, _ => None end
  end.

Section Infer.
Variable table : positive -> kind.

Fixpoint kinds (e : expr) : kind * kenv :=
  match e with
  | ELit s => (KAny, [])
  | EClass rs => (class_kind rs, [])
  | EAny | EPunct => (KAny, [])
  | ECall r => (table r, [])
  | ESeq a b => let (k1, e1) := kinds a in let (k2, e2) := kinds b in (kcat k1 k2, e1 ++ e2)
  | EChoice a b =>
      let (k1, e1) := kinds a in let (k2, e2) := kinds b in
      match e1, e2 with
      | [], [] => (kjoin k1 k2, [])
      | _, _ => (KAny, [])
      end
  | EPlus e1 => (kplus (fst (kinds e1)), [])
  | EOpt e1 => (KOpt (fst (kinds e1)), [])
  | EAnd _ | ENot _ => (KPlain, [])
  | ESub e1 => kinds e1
  | ELabel l e1 => let k := fst (kinds e1) in (k, [(l, k)])
  | EAction a args e1 =>
      match kgets args (snd (kinds e1)) with
      | Some ks => (kact a ks, [])
      | None => (KAny, [])
      end
  end.

End Infer.

Definition kmap : Type := PositiveMap.t kind.
Definition kmap_get (m : kmap) (r : positive) : kind := match PositiveMap.find r m with Some k => k | None => KBot end.

(** One round of the iteration, over all rules. *)
Definition kround (m : kmap) : kmap :=
  PositiveMap.fold (fun r ru m => PositiveMap.add r (kjoin (fst (kinds (kmap_get m) (r_body ru))) (kmap_get m r)) m) rule_map m.
Definition role_kinds : kmap := Eval vm_compute in Nat.iter 20 kround (PositiveMap.empty kind).

(** No alternative of a choice has labels for an action outside of the choice. *)
Fixpoint choices_ok (e : expr) : bool :=
  match e with
  | ESeq a b => choices_ok a && choices_ok b
  | EChoice a b =>
      match snd (kinds (kmap_get role_kinds) a), snd (kinds (kmap_get role_kinds) b) with
      | [], [] => choices_ok a && choices_ok b
      | _, _ => false
      end
  | EPlus a | EOpt a | EAnd a | ENot a | ESub a | ELabel _ a | EAction _ _ a => choices_ok a
  | _ => true
  end.

(** The kinds fit: the body of every rule has the kind of the rule. *)
Definition kfits_all : bool :=
  forallb (fun p => choices_ok (r_body (snd p)) && ksub (fst (kinds (kmap_get role_kinds) (r_body (snd p)))) (kmap_get role_kinds (fst p))) (PositiveMap.elements rule_map).
