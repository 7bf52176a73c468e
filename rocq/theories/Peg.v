(** Model of the parser machinery of /repo/ast/toaq.go (generated by peggy): the
    helpers of lines 418-549 and, as evaluators over [expr], the code that peggy
    emits for each construct in the Accepts, Node and Fail functions of every rule.
    tools/check_go.py checks that the 3 x 403 functions of toaq.go are exactly the
    expansions described here.

    Positions are byte offsets ([nat]); error positions may be -1 and are [Z].
    int32 truncation in deltaPos/deltaErr is not modelled (texts below 2^31 bytes).
    Go's recursion is modelled by fuel: [None] means out of fuel, and PegFacts.v
    shows that it does not happen. *)

From Coq Require Import String Ascii NArith ZArith PArith List Bool FMapPositive.
From Verif Require Import Base Utf8 PegSyntax.
Import ListNotations.
Open Scope Z_scope.

(** Maps keyed by (rule, start), Go's deltaPos[start][rule] and map[_key]T. *)
Definition map2 (A : Type) : Type := PositiveMap.t (PositiveMap.t A).
Definition m2_empty {A} : map2 A := PositiveMap.empty _.
Definition pkey (pos : nat) : positive := Pos.of_succ_nat pos.
Definition m2_get {A} (m : map2 A) (r : positive) (pos : nat) : option A :=
  match PositiveMap.find r m with
  | Some m1 => PositiveMap.find (pkey pos) m1
  | None => None
  end.
Definition m2_set {A} (m : map2 A) (r : positive) (pos : nat) (a : A) : map2 A :=
  let m1 := match PositiveMap.find r m with Some m1 => m1 | None => PositiveMap.empty _ end in
  PositiveMap.add r (PositiveMap.add (pkey pos) a m1) m.

(** The part of _Parser (toaq.go:418-427) that Accepts functions use: deltaPos and
    deltaErr, here one table of pairs, (0, 0) where nothing is stored; lastFail. *)
Record mst : Type := Mst { s_delta : map2 (Z * Z); s_lastFail : Z }.

(** toaq.go:434-443, _NewParser. *)
Definition mst0 : mst := Mst m2_empty 0.

Definition delta (st : mst) (r : positive) (pos : nat) : Z * Z :=
  match m2_get (s_delta st) r pos with Some d => d | None => (0, 0) end.

(** toaq.go:452-463, _memoize; [pos] is -1 for a failure. *)
Definition memoize (st : mst) (r : positive) (start : nat) (pos perr : Z) : Z * Z * mst :=
  let derr := perr - Z.of_nat start in
  if 0 <=? pos then
    let dpos := pos - Z.of_nat start in
    (dpos, derr, Mst (m2_set (s_delta st) r start (dpos + 1, derr + 1)) perr)
  else
    (-1, derr, Mst (m2_set (s_delta st) r start (-1, derr + 1)) perr).

(** toaq.go:465-475, _memo. *)
Definition memo (st : mst) (r : positive) (start : nat) : option (Z * Z) :=
  let (dp, de) := delta st r start in
  if dp =? 0 then None
  else Some (if 0 <? dp then dp - 1 else dp, de - 1).

Section Passes.

(** The rules, the text, and unicode.IsPunct (used by the rule punctuation). *)
Variable G : positive -> rule.
Variable is_punct : N -> bool.
Variable text : string.

(** toaq.go:527-530, _next. *)
Definition next (pos : nat) : N * nat := decode_rune (sdrop pos text).

(** The test of a literal: len(text[pos:]) < n || text[pos:pos+n] != s. *)
Definition has_lit (s : string) (pos : nat) : bool := prefix s (sdrop pos text).

(** The test of ".": w == 0 || r == '�' means failure. *)
Definition any_ok (pos : nat) : bool :=
  let (r, w) := next pos in negb ((w =? 0)%nat || N.eqb r rune_error).

(** ** Accepts *)

(** Outcome of an expression: new position or failure, perr, state. *)
Definition ares : Type := option (option nat * Z * mst).

Definition acc_fail (pos : nat) (perr : Z) (st : mst) : ares :=
  Some (None, Z.max perr (Z.of_nat pos), st).

(** Code emitted for an expression in an Accepts function.  [call] is the Accepts
    function of a rule: deltas, or -1 for failure.  See toaq.go:551-577 (sequence,
    label, action, call), 699-758 (optional), 115001-115070 (class, choice, plus),
    BIAccepts (&), punctuationAccepts (!, ., predicate code), questionsAccepts
    (literal). *)
Fixpoint acc (call : positive -> nat -> mst -> option (Z * Z * mst))
    (e : expr) (pos : nat) (perr : Z) (st : mst) {struct e} : ares :=
  match e with
  | ELit s =>
      if has_lit s pos then Some (Some (pos + String.length s)%nat, perr, st)
      else acc_fail pos perr st
  | EClass rs =>
      let (r, w) := next pos in
      if mem_rune r rs then Some (Some (pos + w)%nat, perr, st)
      else acc_fail pos perr st
  | EAny =>
      if any_ok pos then Some (Some (pos + snd (next pos))%nat, perr, st)
      else acc_fail pos perr st
  | EPunct =>
      if any_ok pos then
        let (r, w) := next pos in
        if is_punct r then Some (Some (pos + w)%nat, perr, st)
        else acc_fail (pos + w)%nat perr st
      else acc_fail pos perr st
  | ECall r =>
      (* toaq.go:499-507, _accept *)
      match call r pos st with
      | None => None
      | Some (dp, de, st') =>
          let perr' := Z.max perr (Z.of_nat pos + de) in
          if dp <? 0 then Some (None, perr', st')
          else Some (Some (pos + Z.to_nat dp)%nat, perr', st')
      end
  | ESeq a b =>
      match acc call a pos perr st with
      | Some (Some pos1, perr1, st1) => acc call b pos1 perr1 st1
      | x => x
      end
  | EChoice a b =>
      match acc call a pos perr st with
      | Some (None, perr1, st1) => acc call b pos perr1 st1
      | x => x
      end
  | EPlus e1 =>
      match acc call e1 pos perr st with
      | Some (Some pos1, perr1, st1) =>
          (fix loop (n : nat) (pos : nat) (perr : Z) (st : mst) {struct n} : ares :=
             match n with
             | O => None
             | S n' =>
                 match acc call e1 pos perr st with
                 | Some (Some pos1, perr1, st1) => loop n' pos1 perr1 st1
                 | Some (None, perr1, st1) => Some (Some pos, perr1, st1)
                 | None => None
                 end
             end) (S (String.length text)) pos1 perr1 st1
      | x => x
      end
  | EOpt e1 =>
      match acc call e1 pos perr st with
      | Some (None, perr1, st1) => Some (Some pos, perr1, st1)
      | x => x
      end
  | EAnd e1 =>
      match acc call e1 pos perr st with
      | Some (Some _, _, st1) => Some (Some pos, perr, st1)
      | Some (None, _, st1) => acc_fail pos perr st1
      | None => None
      end
  | ENot e1 =>
      match acc call e1 pos perr st with
      | Some (Some _, _, st1) => acc_fail pos perr st1
      | Some (None, _, st1) => Some (Some pos, perr, st1)
      | None => None
      end
  | ESub e1 => acc call e1 pos perr st
  | ELabel _ e1 => acc call e1 pos perr st
  | EAction _ _ e1 => acc call e1 pos perr st
  end.

(** The Accepts function of a rule, e.g. toaq.go:551-577; the assignment perr = start
    before a successful return is made by rules with an error name only, e.g. _EOFAccepts. *)
Fixpoint accepts (fuel : nat) (r : positive) (start : nat) (st : mst) : option (Z * Z * mst) :=
  match fuel with
  | O => None
  | S fuel' =>
      match memo st r start with
      | Some (dp, de) => Some (dp, de, st)
      | None =>
          match acc (accepts fuel') (r_body (G r)) start (-1) st with
          | None => None
          | Some (Some pos, perr, st1) =>
              let perr := match r_err (G r) with Some _ => Z.of_nat start | None => perr end in
              Some (memoize st1 r start (Z.of_nat pos) perr)
          | Some (None, perr, st1) => Some (memoize st1 r start (-1) perr)
          end
      end
  end.

(** ** Node *)

(** peg.Node, peg.go:12-23. *)
Inductive pnode : Type := PNode (name txt : string) (kids : list pnode).

Definition slice (i j : nat) : string := stake (j - i) (sdrop i text).

(** toaq.go:532-544, _sub and _leaf. *)
Definition sub_node (i j : nat) (kids : list pnode) : pnode := PNode "" (slice i j) kids.
Definition leaf (i j : nat) : pnode := PNode "" (slice i j) [].

Definition nst : Type := map2 pnode.

(** Outcome of an expression: new position and the kids it appended, or failure (Go
    truncates node.Kids to its former length, so nothing was appended). *)
Definition nres : Type := option (option (nat * list pnode) * nst).

(** Code emitted for an expression in a Node function; [call] is the Node function of
    a rule, [None] for the result (-1, nil). *)
Fixpoint nod (call : positive -> nat -> nst -> option (option (nat * pnode) * nst))
    (e : expr) (pos : nat) (st : nst) {struct e} : nres :=
  match e with
  | ELit s =>
      if has_lit s pos
      then let p := (pos + String.length s)%nat in Some (Some (p, [leaf pos p]), st)
      else Some (None, st)
  | EClass rs =>
      let (r, w) := next pos in
      if mem_rune r rs then Some (Some ((pos + w)%nat, [leaf pos (pos + w)]), st)
      else Some (None, st)
  | EAny =>
      if any_ok pos
      then let p := (pos + snd (next pos))%nat in Some (Some (p, [leaf pos p]), st)
      else Some (None, st)
  | EPunct =>
      if any_ok pos then
        let (r, w) := next pos in
        if is_punct r then Some (Some ((pos + w)%nat, [leaf pos (pos + w)]), st)
        else Some (None, st)
      else Some (None, st)
  | ECall r =>
      (* toaq.go:509-517, _node *)
      match call r pos st with
      | None => None
      | Some (Some (p, kid), st1) => Some (Some (p, [kid]), st1)
      | Some (None, st1) => Some (None, st1)
      end
  | ESeq a b =>
      match nod call a pos st with
      | Some (Some (pos1, k1), st1) =>
          match nod call b pos1 st1 with
          | Some (Some (pos2, k2), st2) => Some (Some (pos2, k1 ++ k2), st2)
          | x => x
          end
      | x => x
      end
  | EChoice a b =>
      match nod call a pos st with
      | Some (None, st1) => nod call b pos st1
      | x => x
      end
  | EPlus e1 =>
      match nod call e1 pos st with
      | Some (Some (pos1, k1), st1) =>
          (fix loop (n : nat) (pos : nat) (ks : list pnode) (st : nst) {struct n} : nres :=
             match n with
             | O => None
             | S n' =>
                 match nod call e1 pos st with
                 | Some (Some (pos1, k1), st1) => loop n' pos1 (ks ++ k1) st1
                 | Some (None, st1) => Some (Some (pos, ks), st1)
                 | None => None
                 end
             end) (S (String.length text)) pos1 k1 st1
      | x => x
      end
  | EOpt e1 =>
      match nod call e1 pos st with
      | Some (None, st1) => Some (Some (pos, []), st1)
      | x => x
      end
  | EAnd e1 =>
      match nod call e1 pos st with
      | Some (Some _, st1) => Some (Some (pos, []), st1)
      | x => x
      end
  | ENot e1 =>
      match nod call e1 pos st with
      | Some (Some _, st1) => Some (None, st1)
      | Some (None, st1) => Some (Some (pos, []), st1)
      | None => None
      end
  | ESub e1 =>
      match nod call e1 pos st with
      | Some (Some (pos1, k1), st1) => Some (Some (pos1, [sub_node pos pos1 k1]), st1)
      | x => x
      end
  | ELabel _ e1 => nod call e1 pos st
  | EAction _ _ e1 => nod call e1 pos st
  end.

(** The Node function of a rule, e.g. toaq.go:579-611.  [ds] is the delta table, which
    this pass only reads.  Positions below zero cannot be represented: a memoised node
    whose deltaPos is 0 would give start-1 in Go; NodeFacts.v shows that a memoised node
    always has a positive deltaPos. *)
Fixpoint node_of (ds : mst) (fuel : nat) (r : positive) (start : nat) (st : nst)
    : option (option (nat * pnode) * nst) :=
  match fuel with
  | O => None
  | S fuel' =>
      let dp := fst (delta ds r start) in
      if dp <? 0 then Some (None, st)
      else match m2_get st r start with
      | Some n => Some (Some (Z.to_nat (Z.of_nat start + (dp - 1)), n), st)
      | None =>
          match nod (node_of ds fuel') (r_body (G r)) start st with
          | None => None
          | Some (Some (pos, kids), st1) =>
              let n := PNode (r_name (G r)) (slice start pos) kids in
              Some (Some (pos, n), m2_set st1 r start n)
          | Some (None, st1) => Some (None, st1)
          end
      end
  end.

(** ** Fail *)

(** peg.Fail, peg.go:31-55.  [f_id] stands for the address of the node, which
    LeafFails compares. *)
Inductive fnode : Type :=
  FNode (f_id : N) (name : string) (fpos : nat) (want : string) (kids : list fnode).

Definition f_pos (f : fnode) : nat := match f with FNode _ _ p _ _ => p end.
Definition f_kids (f : fnode) : list fnode := match f with FNode _ _ _ _ k => k end.
Definition f_want (f : fnode) : string := match f with FNode _ _ _ w _ => w end.

Record fst_ : Type := Fst { s_fail : map2 fnode; s_next : N }.
Definition fst0 : fst_ := Fst m2_empty 0.

(** Outcome: new position or failure, the kids appended to failure.Kids, state. *)
Definition fres : Type := option (option nat * list fnode * fst_).

(** Peggy's rendering of an expression, used in the Want of a failed predicate. *)
Definition hex_digit (n : N) : string :=
  match String.get (N.to_nat n) "0123456789abcdef" with Some c => String c "" | None => "" end.
Definition show_rune (r : N) : string :=
  if ((0x300 <=? r) && (r <? 0x370))%N
  then "\u0" ++ hex_digit (r / 256) ++ hex_digit ((r / 16) mod 16) ++ hex_digit (r mod 16)
  else encode_rune r.
Definition show_class_rune (r : N) : string :=
  if N.eqb r 9 then "\t" else if N.eqb r 10 then "\n" else if N.eqb r 13 then "\r"
  else if N.eqb r 92 then "\\" else if N.eqb r 45 then "\-" else if N.eqb r 94 then "\^"
  else encode_rune r.
Definition dq : string := String (ascii_of_nat 34) "".
Definition show_lit (s : string) : string := dq ++ String.concat "" (map show_rune (runes s)) ++ dq.
Definition show_class (rs : list N) : string := "[" ++ String.concat "" (map show_class_rune rs) ++ "]".
Fixpoint show (e : expr) : string :=
  match e with
  | ELit s => show_lit s
  | EClass rs => show_class rs
  | EAny => "."
  | EPunct => "p:. &{…}"
  | ECall r => r_name (G r)
  | ESeq a b => show a ++ " " ++ show b
  | EChoice a b => show a ++ "/" ++ show b
  | EPlus e => show e ++ "+"
  | EOpt e => show e ++ "?"
  | EAnd e => "&" ++ show e
  | ENot e => "!" ++ show e
  | ESub e => "(" ++ show e ++ ")"
  | ELabel _ e => show e
  | EAction _ _ e => show e ++ " {…}"
  end.

Definition punct_want : string :=
  "&{ func() bool { r, _ := peg.DecodeRuneInString(p); return unicode.IsPunct(r) }() }".

(** "if pos >= errPos { append &peg.Fail{Pos: pos, Want: want} }". *)
Definition want_at (errPos : Z) (pos : nat) (want : string) (st : fst_) : list fnode * fst_ :=
  if errPos <=? Z.of_nat pos
  then ([FNode (s_next st) "" pos want []], Fst (s_fail st) (N.succ (s_next st)))
  else ([], st).

Definition fail_at (errPos : Z) (pos : nat) (want : string) (st : fst_) : fres :=
  let (ks, st1) := want_at errPos pos want st in Some (None, ks, st1).

(** Code emitted for an expression in a Fail function; kids found before a failure
    stay in failure.Kids, except those of a predicate's operand. *)
Fixpoint fai (call : positive -> nat -> fst_ -> option (option nat * fnode * fst_)) (errPos : Z)
    (e : expr) (pos : nat) (st : fst_) {struct e} : fres :=
  match e with
  | ELit s =>
      if has_lit s pos then Some (Some (pos + String.length s)%nat, [], st)
      else fail_at errPos pos (show_lit s) st
  | EClass rs =>
      let (r, w) := next pos in
      if mem_rune r rs then Some (Some (pos + w)%nat, [], st)
      else fail_at errPos pos (show_class rs) st
  | EAny =>
      if any_ok pos then Some (Some (pos + snd (next pos))%nat, [], st)
      else fail_at errPos pos "." st
  | EPunct =>
      if any_ok pos then
        let (r, w) := next pos in
        if is_punct r then Some (Some (pos + w)%nat, [], st)
        else fail_at errPos (pos + w)%nat punct_want st
      else fail_at errPos pos "." st
  | ECall r =>
      (* toaq.go:519-525, _fail *)
      match call r pos st with
      | None => None
      | Some (p, kid, st1) =>
          let keep := negb (String.eqb (f_want kid) "") || negb (match f_kids kid with [] => true | _ => false end) in
          Some (p, if keep then [kid] else [], st1)
      end
  | ESeq a b =>
      match fai call errPos a pos st with
      | Some (Some pos1, k1, st1) =>
          match fai call errPos b pos1 st1 with
          | Some (p, k2, st2) => Some (p, k1 ++ k2, st2)
          | None => None
          end
      | x => x
      end
  | EChoice a b =>
      match fai call errPos a pos st with
      | Some (None, k1, st1) =>
          match fai call errPos b pos st1 with
          | Some (p, k2, st2) => Some (p, k1 ++ k2, st2)
          | None => None
          end
      | x => x
      end
  | EPlus e1 =>
      match fai call errPos e1 pos st with
      | Some (Some pos1, k1, st1) =>
          (fix loop (n : nat) (pos : nat) (ks : list fnode) (st : fst_) {struct n} : fres :=
             match n with
             | O => None
             | S n' =>
                 match fai call errPos e1 pos st with
                 | Some (Some pos1, k1, st1) => loop n' pos1 (ks ++ k1) st1
                 | Some (None, k1, st1) => Some (Some pos, ks ++ k1, st1)
                 | None => None
                 end
             end) (S (String.length text)) pos1 k1 st1
      | x => x
      end
  | EOpt e1 =>
      match fai call errPos e1 pos st with
      | Some (None, k1, st1) => Some (Some pos, k1, st1)
      | x => x
      end
  | EAnd e1 =>
      match fai call errPos e1 pos st with
      | Some (Some _, _, st1) => Some (Some pos, [], st1)
      | Some (None, _, st1) => fail_at errPos pos (show e) st1
      | None => None
      end
  | ENot e1 =>
      match fai call errPos e1 pos st with
      | Some (Some _, _, st1) => fail_at errPos pos (show e) st1
      | Some (None, _, st1) => Some (Some pos, [], st1)
      | None => None
      end
  | ESub e1 => fai call errPos e1 pos st
  | ELabel _ e1 => fai call errPos e1 pos st
  | EAction _ _ e1 => fai call errPos e1 pos st
  end.

(** toaq.go:477-497, _failMemo: a position and a node to return at once, or [None] to
    go on with pos = start. *)
Definition failMemo (ds : mst) (r : positive) (start : nat) (errPos : Z) (st : fst_)
    : option (option nat * fnode * fst_) :=
  let empty := (FNode (s_next st) "" 0 "" [], Fst (s_fail st) (N.succ (s_next st))) in
  if s_lastFail ds <? Z.of_nat start then Some (None, fst empty, snd empty)
  else
    let (dp, de) := delta ds r start in
    if Z.of_nat start + (de - 1) <? errPos then
      if 0 <? dp then Some (Some (Z.to_nat (Z.of_nat start + (dp - 1))), fst empty, snd empty)
      else Some (None, fst empty, snd empty)
    else
      match m2_get (s_fail st) r start with
      | Some f =>
          if dp <? 0 then Some (None, f, st)
          else if 0 <? dp then Some (Some (Z.to_nat (Z.of_nat start + (dp - 1))), f, st)
          else None
      | None => None
      end.

(** The Fail function of a rule, e.g. toaq.go:613-645; rules with an error name drop
    the kids and, on failure, set Want (e.g. _spaceFail).  The node is allocated before
    the expression is run, with its fields filled in later; its identity is taken from
    the counter at that moment. *)
Fixpoint fail_of (ds : mst) (errPos : Z) (fuel : nat) (r : positive) (start : nat) (st : fst_)
    : option (option nat * fnode * fst_) :=
  match fuel with
  | O => None
  | S fuel' =>
      match failMemo ds r start errPos st with
      | Some x => Some x
      | None =>
          let id := s_next st in
          match fai (fail_of ds errPos fuel') errPos (r_body (G r)) start
                  (Fst (s_fail st) (N.succ id)) with
          | None => None
          | Some (p, kids, st1) =>
              let f :=
                match r_err (G r), p with
                | Some _, Some _ => FNode id (r_name (G r)) start "" []
                | Some w, None => FNode id (r_name (G r)) start w []
                | None, _ => FNode id (r_name (G r)) start "" kids
                end in
              Some (p, f, Fst (m2_set (s_fail st1) r start f) (s_next st1))
          end
      end
  end.

End Passes.

(** ** Errors *)

(** The state of LeafFails (fail.go:67-93): the nodes seen, pos, fails. *)
Record leafst : Type := Leafst { lf_seen : PositiveMap.t unit; lf_pos : Z; lf_fails : list fnode }.

(** fail.go:72-90, walk. *)
Fixpoint leaf_walk (n : fnode) (s : leafst) {struct n} : leafst :=
  match n with
  | FNode id _ p _ kids =>
      match PositiveMap.find (N.succ_pos id) (lf_seen s) with
      | Some _ => s
      | None =>
          let s := Leafst (PositiveMap.add (N.succ_pos id) tt (lf_seen s)) (lf_pos s) (lf_fails s) in
          match kids with
          | [] =>
              if lf_pos s <? Z.of_nat p then Leafst (lf_seen s) (Z.of_nat p) [n]
              else if Z.of_nat p =? lf_pos s then Leafst (lf_seen s) (lf_pos s) (lf_fails s ++ [n])
              else s
          | _ =>
              (fix walks (l : list fnode) (s : leafst) : leafst :=
                 match l with
                 | [] => s
                 | k :: l' => walks l' (leaf_walk k s)
                 end) kids s
          end
      end
  end.

(** fail.go:67-93, LeafFails. *)
Definition leaf_fails (n : fnode) : list fnode :=
  lf_fails (leaf_walk n (Leafst (PositiveMap.empty _) (-1) [])).

(** /repo/ast/parser.go:30-41, byteOffset. *)
Fixpoint byte_offset (f : fnode) : Z :=
  match f with
  | FNode _ _ p _ [] => Z.of_nat p
  | FNode _ _ _ _ kids => fold_left (fun m k => let o := byte_offset k in if m <? o then o else m) kids (-1)
  end.

(** fail.go:21-32, the list of expectations of SimpleError. *)
Fixpoint want_list (i n : nat) (want : string) (ls : list fnode) : string :=
  match ls with
  | [] => want
  | l :: ls' =>
      let last := (i =? n - 1)%nat in
      let want :=
        if (last && (i =? 1)%nat)%bool then (want ++ " or ")%string
        else if (last && (1 <? String.length want)%nat)%bool then (want ++ ", or ")%string
        else if (0 <? i)%nat then (want ++ ", ")%string
        else want in
      want_list (S i) n (want ++ f_want l)%string ls'
  end.
