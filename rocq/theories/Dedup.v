(** Model of peg.DedupFails, /repo/vendor/github.com/eaburns/peggy/peg/fail.go:95-118, and of
    peg.PrettyWrite for a Fail, pretty.go:51-115. *)

From Coq Require Import String Ascii NArith List Bool FMapPositive.
From Verif Require Import Base PegSyntax Peg Parser LogicString App.
Import ListNotations.
Open Scope string_scope.

(** What DedupFails has found out: for each node that it has seen, which of its kids it
    keeps.  (The map seen, and the new value of the field Kids of each node.) *)
Definition plan : Type := PositiveMap.t (list bool).

(** fail.go:102-116, walk: whether the node is kept. *)
Fixpoint dedup_walk (n : fnode) (s : plan) {struct n} : bool * plan :=
  match n with
  | FNode id _ _ _ kids =>
      match PositiveMap.find (N.succ_pos id) s with
      | Some _ => (false, s)                                        (* 103-105 *)
      | None =>
          let s := PositiveMap.add (N.succ_pos id) [] s in          (* 106 *)
          let (ks, s) :=
            (fix walks (l : list fnode) (s : plan) : list bool * plan :=
               match l with
               | [] => ([], s)
               | k :: l' =>
                   let (b, s1) := dedup_walk k s in
                   let (bs, s2) := walks l' s1 in (b :: bs, s2)
               end) kids s in
          (true, PositiveMap.add (N.succ_pos id) ks s)              (* 113 *)
      end
  end.

(** What a pointer to a node points to after that: the fields Kids have changed, wherever
    the node is reached from. *)
Fixpoint after (s : plan) (n : fnode) {struct n} : fnode :=
  match n with
  | FNode id name p w kids =>
      FNode id name p w
        match PositiveMap.find (N.succ_pos id) s with
        | None => map (after s) kids
        | Some bs =>
            (fix pick (l : list fnode) (bs : list bool) : list fnode :=
               match l, bs with
               | k :: l', b :: bs' => if b then after s k :: pick l' bs' else pick l' bs'
               | _, _ => []
               end) kids bs
        end
  end.

(** fail.go:95-118, DedupFails: what becomes of the nodes. *)
Definition dedup_plan (n : fnode) : plan := snd (dedup_walk n (PositiveMap.empty _)).
Definition dedup (n : fnode) : fnode := after (dedup_plan n) n.

(** The error tree shares its nodes with those that the parser has memoized, so these
    change as well. *)
Definition dedup_parser (n : fnode) (p : parser) : parser :=
  Parser (q_text p) (q_m p) (q_node p)
    (Fst (PositiveMap.map (PositiveMap.map (after (dedup_plan n))) (s_fail (q_fail p))) (s_next (q_fail p))) (q_act p).

(** pretty.go:51-115, prettyWrite, for a Fail. *)
Fixpoint pretty_fail (tab : string) (n : fnode) : string :=
  let 'FNode _ name p want kids := n in
  tab ++
  match kids with
  | nil =>
      let q := quote_char ++ want ++ quote_char in
      if String.eqb name "" then q else name ++ "(" ++ q ++ ")"
  | [FNode _ _ _ _ [] as k] => name ++ "[" ++ itoa p ++ "]{" ++ pretty_fail "" k ++ "}"
  | _ =>
      name ++ "[" ++ itoa p ++ "]{" ++
      String.concat "" (map (fun k => newline ++ pretty_fail (tab ++ tab_char) k ++ ",") kids) ++
      newline ++ tab ++ "}"
  end.

(** What can happen to a Parser after some state of it: operations only. *)
Section Later.
Variable is_punct : N -> bool.
Inductive later (p : parser) : parser -> Prop :=
  | LHere : later p p
  | LTree q : later p q -> later p (snd (tree is_punct q))
  | LWord q offs : later p q -> later p (snd (word_at is_punct offs q))
  | LText q : later p q -> later p (snd (text_of is_punct q)).

(** The states of a Parser for [text] whose client also calls DedupFails on errors that it
    gets. *)
Inductive reach_dedup (text : string) : parser -> Prop :=
  | DNew : reach_dedup text (new_parser text)
  | DTree p : reach_dedup text p -> reach_dedup text (snd (tree is_punct p))
  | DWord p offs : reach_dedup text p -> reach_dedup text (snd (word_at is_punct offs p))
  | DText p : reach_dedup text p -> reach_dedup text (snd (text_of is_punct p))
  | DTreeDedup p e : reach_dedup text p -> fst (tree is_punct p) = Ok (Err e) ->
      reach_dedup text (dedup_parser (pe_tree e) (snd (tree is_punct p)))
  | DWordDedup p offs e : reach_dedup text p -> fst (word_at is_punct offs p) = Ok (Err e) ->
      reach_dedup text (dedup_parser (pe_tree e) (snd (word_at is_punct offs p)))
  | DTextDedup p e : reach_dedup text p -> fst (text_of is_punct p) = Ok (Err e) ->
      reach_dedup text (dedup_parser (pe_tree e) (snd (text_of is_punct p))).
End Later.
