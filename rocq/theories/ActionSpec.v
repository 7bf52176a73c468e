(** What the actions of a grammar compute, independently of the memo tables: the value
    of an expression at a position, by recursion over the match.

    A rule that does not match at a position has no value there and its actions are not
    run; the Action pass knows this from the table that Accepts left behind. *)

From Coq Require Import String NArith ZArith PArith List.
From Verif Require Import Base Utf8 PegSyntax Peg PegSpec Ast Action.
Import ListNotations.

Definition terminal (e : expr) : bool :=
  match e with ELit _ | EClass _ | EAny | EPunct => true | _ => false end.

Definition stuck {A} (o : aout A) : bool := match o with AOk _ _ => false | _ => true end.

Section Spec.

Variable G : positive -> rule.
Variable is_punct : N -> bool.
Variable text : string.
Notation sem := (@sem G is_punct text).

Inductive vsem : expr -> nat -> aout (val * env) -> Prop :=
  | VTerm e pos p k err :
      terminal e = true -> sem e pos (Some (p, k)) err ->
      vsem e pos (AOk p (VStr (slice text pos p), []))
  | VTermF e pos err :
      terminal e = true -> sem e pos None err -> vsem e pos AFail
  | VCallF r pos err :
      sem (ECall r) pos None err -> vsem (ECall r) pos AFail
  | VCall r pos p k err v en :
      sem (ECall r) pos (Some (p, k)) err -> vsem (r_body (G r)) pos (AOk p (v, en)) ->
      vsem (ECall r) pos (AOk p (v, []))
  | VCallP r pos p k err q :
      sem (ECall r) pos (Some (p, k)) err -> vsem (r_body (G r)) pos (APanic q) ->
      vsem (ECall r) pos (APanic q)
  | VSeq a b pos p1 v1 en1 p2 v2 en2 :
      vsem a pos (AOk p1 (v1, en1)) -> vsem b p1 (AOk p2 (v2, en2)) ->
      vsem (ESeq a b) pos (AOk p2 (vcat v1 v2, en1 ++ en2))
  | VSeq1 a b pos o :
      vsem a pos o -> stuck o = true -> vsem (ESeq a b) pos o
  | VSeq2 a b pos p1 v1 en1 o :
      vsem a pos (AOk p1 (v1, en1)) -> vsem b p1 o -> stuck o = true -> vsem (ESeq a b) pos o
  | VChoice1 a b pos o :
      vsem a pos o -> o <> AFail -> vsem (EChoice a b) pos o
  | VChoice2 a b pos o :
      vsem a pos AFail -> vsem b pos o -> vsem (EChoice a b) pos o
  | VPlus e pos p1 v1 en1 o :
      vsem e pos (AOk p1 (v1, en1)) -> vstar e p1 (vplus0 v1) o -> vsem (EPlus e) pos o
  | VPlus1 e pos o :
      vsem e pos o -> stuck o = true -> vsem (EPlus e) pos o
  | VOptS e pos p v en :
      vsem e pos (AOk p (v, en)) -> vsem (EOpt e) pos (AOk p (VOpt (Some v), []))
  | VOptN e pos :
      vsem e pos AFail -> vsem (EOpt e) pos (AOk pos (VOpt None, []))
  | VOptP e pos q :
      vsem e pos (APanic q) -> vsem (EOpt e) pos (APanic q)
  | VAnd e pos p v :
      vsem e pos (AOk p v) -> vsem (EAnd e) pos (AOk pos (VStr "", []))
  | VAndX e pos o :
      vsem e pos o -> stuck o = true -> vsem (EAnd e) pos o
  | VNot e pos :
      vsem e pos AFail -> vsem (ENot e) pos (AOk pos (VStr "", []))
  | VNotF e pos p v :
      vsem e pos (AOk p v) -> vsem (ENot e) pos AFail
  | VNotP e pos q :
      vsem e pos (APanic q) -> vsem (ENot e) pos (APanic q)
  | VSub e pos o :
      vsem e pos o -> vsem (ESub e) pos o
  | VLabel l e pos p v en :
      vsem e pos (AOk p (v, en)) -> vsem (ELabel l e) pos (AOk p (v, [(l, v)]))
  | VLabelX l e pos o :
      vsem e pos o -> stuck o = true -> vsem (ELabel l e) pos o
  | VAct a args e pos p v en v' :
      vsem e pos (AOk p (v, en)) -> run_action a args pos p en = Ok v' ->
      vsem (EAction a args e) pos (AOk p (v', []))
  | VActP a args e pos p v en q :
      vsem e pos (AOk p (v, en)) -> run_action a args pos p en = Panic q ->
      vsem (EAction a args e) pos (APanic q)
  | VActX a args e pos o :
      vsem e pos o -> stuck o = true -> vsem (EAction a args e) pos o
(* the rest of a repetition, with the value so far *)
with vstar : expr -> nat -> val -> aout (val * env) -> Prop :=
  | VStarEnd e pos v :
      vsem e pos AFail -> vstar e pos v (AOk pos (v, []))
  | VStarP e pos v q :
      vsem e pos (APanic q) -> vstar e pos v (APanic q)
  | VStarStep e pos v p1 v1 en1 o :
      vsem e pos (AOk p1 (v1, en1)) -> vstar e p1 (vplus v v1) o -> vstar e pos v o.

End Spec.

Scheme vsem_ind2 := Induction for vsem Sort Prop
  with vstar_ind2 := Induction for vstar Sort Prop.
Combined Scheme vsem_star_ind from vsem_ind2, vstar_ind2.
