(** What a parsing expression grammar means, independently of the packrat parser:
    ordinary recursive PEG semantics, without memo tables, fuel or error pruning.

    [sem e pos res err]: matching [e] at byte [pos] of the text either fails
    ([res = None]) or succeeds, ending at a position with a list of parse-tree nodes;
    [err] is the furthest position at which a terminal or predicate failed on the way,
    -1 if none did.  Inside a predicate failures do not count, and a successful rule
    with an error name reports its start. *)

From Coq Require Import String NArith ZArith PArith List.
From Verif Require Import Base Utf8 PegSyntax Peg.
Import ListNotations.
Open Scope Z_scope.

Section Spec.

Variable G : positive -> rule.
Variable is_punct : N -> bool.
Variable text : string.

Definition mk_leaf (i j : nat) : pnode := PNode "" (stake (j - i) (sdrop i text)) [].

Inductive sem : expr -> nat -> option (nat * list pnode) -> Z -> Prop :=
  | SLit s pos rest :
      sdrop pos text = (s ++ rest)%string ->
      sem (ELit s) pos (Some ((pos + String.length s)%nat, [mk_leaf pos (pos + String.length s)])) (-1)
  | SLitF s pos :
      (forall rest, sdrop pos text <> (s ++ rest)%string) ->
      sem (ELit s) pos None (Z.of_nat pos)
  | SClass rs pos r w :
      decode_rune (sdrop pos text) = (r, w) -> In r rs ->
      sem (EClass rs) pos (Some ((pos + w)%nat, [mk_leaf pos (pos + w)])) (-1)
  | SClassF rs pos r w :
      decode_rune (sdrop pos text) = (r, w) -> ~ In r rs ->
      sem (EClass rs) pos None (Z.of_nat pos)
  | SAny pos r w :
      decode_rune (sdrop pos text) = (r, w) -> r <> rune_error ->
      sem EAny pos (Some ((pos + w)%nat, [mk_leaf pos (pos + w)])) (-1)
  | SAnyF pos w :
      decode_rune (sdrop pos text) = (rune_error, w) ->
      sem EAny pos None (Z.of_nat pos)
  | SPunct pos r w :
      decode_rune (sdrop pos text) = (r, w) -> r <> rune_error -> is_punct r = true ->
      sem EPunct pos (Some ((pos + w)%nat, [mk_leaf pos (pos + w)])) (-1)
  | SPunctF pos w :
      decode_rune (sdrop pos text) = (rune_error, w) ->
      sem EPunct pos None (Z.of_nat pos)
  | SPunctP pos r w :
      decode_rune (sdrop pos text) = (r, w) -> r <> rune_error -> is_punct r = false ->
      sem EPunct pos None (Z.of_nat (pos + w))
  | SCall r pos p kids err :
      sem (r_body (G r)) pos (Some (p, kids)) err ->
      sem (ECall r) pos (Some (p, [PNode (r_name (G r)) (stake (p - pos) (sdrop pos text)) kids]))
        (match r_err (G r) with Some _ => Z.of_nat pos | None => err end)
  | SCallF r pos err :
      sem (r_body (G r)) pos None err ->
      sem (ECall r) pos None err
  | SSeq a b pos p1 k1 e1 p2 k2 e2 :
      sem a pos (Some (p1, k1)) e1 -> sem b p1 (Some (p2, k2)) e2 ->
      sem (ESeq a b) pos (Some (p2, k1 ++ k2)) (Z.max e1 e2)
  | SSeqF1 a b pos e1 :
      sem a pos None e1 ->
      sem (ESeq a b) pos None e1
  | SSeqF2 a b pos p1 k1 e1 e2 :
      sem a pos (Some (p1, k1)) e1 -> sem b p1 None e2 ->
      sem (ESeq a b) pos None (Z.max e1 e2)
  | SChoice1 a b pos p k err :
      sem a pos (Some (p, k)) err ->
      sem (EChoice a b) pos (Some (p, k)) err
  | SChoice2 a b pos res e1 e2 :
      sem a pos None e1 -> sem b pos res e2 ->
      sem (EChoice a b) pos res (Z.max e1 e2)
  | SPlus e pos p1 k1 e1 p2 k2 e2 :
      sem e pos (Some (p1, k1)) e1 -> star e p1 p2 k2 e2 ->
      sem (EPlus e) pos (Some (p2, k1 ++ k2)) (Z.max e1 e2)
  | SPlusF e pos err :
      sem e pos None err ->
      sem (EPlus e) pos None err
  | SOpt e pos p k err :
      sem e pos (Some (p, k)) err ->
      sem (EOpt e) pos (Some (p, k)) err
  | SOptN e pos err :
      sem e pos None err ->
      sem (EOpt e) pos (Some (pos, [])) err
  | SAnd e pos p k err :
      sem e pos (Some (p, k)) err ->
      sem (EAnd e) pos (Some (pos, [])) (-1)
  | SAndF e pos err :
      sem e pos None err ->
      sem (EAnd e) pos None (Z.of_nat pos)
  | SNot e pos err :
      sem e pos None err ->
      sem (ENot e) pos (Some (pos, [])) (-1)
  | SNotF e pos p k err :
      sem e pos (Some (p, k)) err ->
      sem (ENot e) pos None (Z.of_nat pos)
  | SSub e pos p k err :
      sem e pos (Some (p, k)) err ->
      sem (ESub e) pos (Some (p, [PNode "" (stake (p - pos) (sdrop pos text)) k])) err
  | SSubF e pos err :
      sem e pos None err ->
      sem (ESub e) pos None err
  | SLabel l e pos res err :
      sem e pos res err ->
      sem (ELabel l e) pos res err
  | SAction a args e pos res err :
      sem e pos res err ->
      sem (EAction a args e) pos res err
with star : expr -> nat -> nat -> list pnode -> Z -> Prop :=
  | StarEnd e pos err :
      sem e pos None err ->
      star e pos pos [] err
  | StarStep e pos p1 k1 e1 p2 k2 e2 :
      sem e pos (Some (p1, k1)) e1 -> star e p1 p2 k2 e2 ->
      star e pos p2 (k1 ++ k2) (Z.max e1 e2).

End Spec.

Scheme sem_ind2 := Induction for sem Sort Prop
  with star_ind2 := Induction for star Sort Prop.
Combined Scheme sem_star_ind from sem_ind2, star_ind2.
