(** Function words are matched twice, by a rule of the word group as lookahead and by a
    rule for a syllable.  The texts that both accept, by enumerating what the lookahead
    accepts and running the syllable on each of those beginnings of a text. *)

From Coq Require Import String Ascii NArith ZArith PArith List Bool FMapPositive Lia.
From Verif Require Import Base Utf8 Utf8Facts Tone PegSyntax Grammar Peg PegToaq PegSpec PegFacts PegToaqFacts Ast Action ActionSpec SpellSpec SpellFacts WordShape LogicWords FuncWords.
Import ListNotations.
Open Scope nat_scope.
Open Scope list_scope.
Open Scope res_scope.

(** The rules boundary and tone, toaq.peggy:433 and 453. *)
Definition r_boundary : positive := 133.
Definition r_tone : positive := 143.
Definition r_questions : positive := 224.

(** A literal of one rune. *)
Definition lit_rune (s : string) : option N :=
  match runes s with [c] => if real c && String.eqb (of_runes [c]) s then Some c else None | _ => None end.

Definition obind {A B} (o : option A) (f : A -> option B) : option B := match o with Some a => f a | None => None end.
Fixpoint oflat {A B} (f : A -> option (list B)) (l : list A) : option (list B) :=
  match l with
  | [] => Some []
  | x :: l' => obind (f x) (fun y => obind (oflat f l') (fun z => Some (y ++ z)))
  end.

(** All runes that an expression can match. *)
Fixpoint gen (fuel : nat) (e : expr) : option (list (list N)) :=
  match fuel with
  | O => None
  | S f =>
      match e with
      | EClass rs => if forallb real rs then Some (map (fun r => [r]) rs) else None
      | ELit s => obind (lit_rune s) (fun c => Some [[c]])
      | ECall r => gen f (r_body (toaq r))
      | ESeq a b => obind (gen f a) (fun l => obind (gen f b) (fun l' => Some (flat_map (fun x => map (app x) l') l)))
      | EChoice a b => obind (gen f a) (fun l => obind (gen f b) (fun l' => Some (l ++ l')))
      | EOpt e => obind (gen f e) (fun l => Some ([] :: l))
      | ESub e | ELabel _ e | EAction _ _ e => gen f e
      | _ => None
      end
  end.

(** What comes next in the text: the start of another syllable, a separator or the end of
    the text; the same, maybe after a sign for a tone; or neither a letter of the syllable
    nor a combining character. *)
Inductive tail : Type := TBoundary | TTone | TAny.
Definition tone_runes : list N := [45; 49; 47; 50; 86; 51; 63; 52; 94; 53; 92; 54; 126; 55]%N.
Definition innerb (r : N) : bool := mem_rune r inner_runes.
Definition bnd (r : N) : bool := negb (innerb r) && negb (mem_rune r tone_runes).

(** The lookahead at the end of the rules for groups of words. *)
Fixpoint look (fuel : nat) (e : expr) : option tail :=
  match fuel with
  | O => None
  | S f =>
      match e with
      | ESub e => look f e
      | ECall r => if Pos.eqb r r_boundary then Some TBoundary else None
      | ESeq (EOpt (ECall t)) (ECall b) =>
          if Pos.eqb t r_tone && Pos.eqb b r_boundary then Some TTone else None
      | ESeq (EOpt (ESub (EChoice (ECall q) (ECall t)))) (ECall b) =>
          if Pos.eqb q r_questions && Pos.eqb t r_tone && Pos.eqb b r_boundary then Some TAny else None
      | _ => None
      end
  end.
Fixpoint vis (fuel : nat) (e : expr) : option (list (list N * tail)) :=
  match fuel with
  | O => None
  | S f =>
      match e with
      | ECall r => vis f (r_body (toaq r))
      | ESub e => vis f e
      | ESeq a b => obind (gen f a) (fun l => obind (vis f b) (fun l' =>
          Some (flat_map (fun x => map (fun y => (x ++ fst y, snd y)) l') l)))
      | EAnd e => obind (look f e) (fun k => Some [([], k)])
      | _ => None
      end
  end.

(** The values of an expression, and what it leaves, if the text starts with the known
    runes and goes on as told. *)
Definition state : Type := list N * tail.
Definition pure_act (a : act) : bool := match a with AEmpty | ADotless | ADiacritic _ | AAddTone => true | _ => false end.
Definition class_at (rs : list N) (s : state) : option (list (state * (val * env))) :=
  if forallb real rs then
    match s with
    | (r :: rest, k) => Some (if mem_rune r rs then [((rest, k), (VStr (of_runes [r]), []))] else [])
    | ([], k) =>
        if existsb bnd rs then None
        else match k with
          | TBoundary => Some []
          | TTone => Some (map (fun r => (([], TBoundary), (VStr (of_runes [r]), []))) (filter (fun r => mem_rune r tone_runes) rs))
          | TAny => if existsb (fun r => mem_rune r tone_runes) rs then None else Some []
          end
    end
  else None.
(** Lookahead, only used at the end of a syllable. *)
Fixpoint skip (l : list N) : list N := match l with x :: l' => if N.eqb x 63 then skip l' else l | [] => [] end.
Definition starts_bnd (l : list N) : bool := match l with x :: _ => bnd x | [] => true end.
Definition ahead (e : expr) (l : list N) : bool :=
  match e with
  | ECall r => if Pos.eqb r r_boundary then starts_bnd l else true
  | ESub (EChoice (ESeq (ECall q) (ECall b)) (ECall b')) =>
      if Pos.eqb q r_questions && Pos.eqb b r_boundary && Pos.eqb b' r_boundary then starts_bnd l || starts_bnd (skip l) else true
  | _ => true
  end.
Fixpoint sv (fuel : nat) (e : expr) (s : state) : option (list (state * (val * env))) :=
  match fuel with
  | O => None
  | S f =>
      match e with
      | EClass rs => class_at rs s
      | ELit t => obind (lit_rune t) (fun c => class_at [c] s)
      | ECall r => obind (sv f (r_body (toaq r)) s) (fun l => Some (map (fun x => (fst x, (fst (snd x), []))) l))
      | ESeq a b => obind (sv f a s) (oflat (fun x => obind (sv f b (fst x)) (fun l =>
          Some (map (fun y => (fst y, (vcat (fst (snd x)) (fst (snd y)), snd (snd x) ++ snd (snd y)))) l))))
      | EChoice a b => obind (sv f a s) (fun l => obind (sv f b s) (fun l' => Some (l ++ l')))
      | EAnd e => Some (if ahead e (fst s) then [(s, (VStr "", []))] else [])
      | ENot _ => Some [(s, (VStr "", []))]
      | ESub e => sv f e s
      | ELabel n e => obind (sv f e s) (fun l => Some (map (fun x => (fst x, (fst (snd x), [(n, fst (snd x))]))) l))
      | EAction a args e =>
          if pure_act a then
            obind (sv f e s) (fun l => Some (flat_map (fun x => match run_action a args 0 0 (snd (snd x)) with Ok v => [(fst x, (v, []))] | _ => [] end) l))
          else None
      | _ => None
      end
  end.

Definition strs (l : list (state * (val * env))) : list string :=
  flat_map (fun x => match fst (snd x) with VStr s => [s] | _ => [] end) l.
(** The texts of a word that is matched by [x] and by [y]. *)
Definition site (n : nat) (x y : positive) : option (list string) :=
  obind (vis n (ECall x)) (oflat (fun u => obind (sv n (ECall y) u) (fun l => Some (strs l)))).
