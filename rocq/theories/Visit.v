(** Model of /repo/ast/visit.go and of ast.ToASCII (ast.go:755-761).

    A Visitor is a value of [V] with the method [step v n s] for v.Visit(n): [n] is [None]
    for a nil node, [s] is everything the method can read and change, and the result is
    the returned visitor ([None] for nil) and the state afterwards.  A method that panics
    or does not return is not modelled, nor is one that changes the nodes themselves,
    except for ToASCII. *)

From Coq Require Import String List.
From Verif Require Import Base PegSyntax Tone Ast.
Import ListNotations.

Section Visit.

Context {V S : Type}.
Variable step : V -> option node -> S -> option V * S.

(** visit.go:32-42, the start of Visit for a non-nil node, and the deferred call; [kids]
    is the switch that follows. *)
Definition call (n : node) (kids : V -> S -> S) (v : V) (s : S) : S :=
  match step v (Some n) s with
  | (None, s1) => s1
  | (Some v1, s1) => snd (step v1 None (kids v1 s1))
  end.

Section All.
Context {A : Type} (f : A -> V -> S -> S) (v : V).
Fixpoint all (l : list A) (s : S) : S :=
  match l with [] => s | x :: l' => all l' (f x v s) end.
End All.

(** visit.go:32-204, Visit.  The raw CoP, LUPhrase and Word inside the types declared as
    them are visited as nodes of their own, so is the Terms of a Predication even if it
    is nil (its kind is not reflect.Ptr, line 36). *)
Fixpoint visit (n : node) (v : V) (s : S) {struct n} : S :=
  match n with
  | NText ld d =>                                                   (* 45-47 *)
      call n (fun v s =>
        let s := match ld with None => s | Some x => visit x v s end in
        call (NDiscourse d) (fun v s => all visit v d s) v s) v s
  | NDiscourse d => call n (fun v s => all visit v d s) v s         (* 49-52 *)
  | NSentence je st da =>                                           (* 54-57 *)
      call n (fun v s =>
        let s := match je with None => s | Some x => visit_word x v s end in
        let s := visit st v s in
        match da with None => s | Some x => visit_word x v s end) v s
  | NPrenex ts bi =>                                                (* 62-64 *)
      call n (fun v s =>
        let s := call (NTerms ts) (fun v s => all visit v ts s) v s in
        visit_word bi v s) v s
  | NPrenexStmt p st => call n (fun v s => visit st v (visit p v s)) v s   (* 66-68 *)
  | NPredication p ts na =>                                         (* 70-73 *)
      call n (fun v s =>
        let s := visit p v s in
        let s := match ts with
                 | None => call (NTerms []) (fun v s => s) v s
                 | Some l => call (NTerms l) (fun v s => all visit v l s) v s
                 end in
        match na with None => s | Some x => visit_word x v s end) v s
  | NPrefixed mu p => call n (fun v s => visit p v (visit_word mu v s)) v s (* 78-80 *)
  | NSerial l r => call n (fun v s => visit r v (visit l v s)) v s  (* 82-84 *)
  | NWordPredicate w => call n (fun v s => visit_word w v s) v s    (* 86-87 *)
  | NMi mi ga p =>                                                  (* 89-92 *)
      call n (fun v s =>
        let s := visit p v (visit_word mi v s) in
        match ga with None => s | Some x => visit_word x v s end) v s
  | NPo po ga a =>                                                  (* 94-97 *)
      call n (fun v s =>
        let s := visit a v (visit_word po v s) in
        match ga with None => s | Some x => visit_word x v s end) v s
  | NMo mo teo d =>                                                 (* 99-102 *)
      call n (fun v s =>
        let s := visit_word mo v s in
        let s := call (NDiscourse d) (fun v s => all visit v d s) v s in
        visit_word teo v s) v s
  | NLinked go a => call n (fun v s => visit a v (visit_word go v s)) v s   (* 110-112 *)
  | NTerms ts => call n (fun v s => all visit v ts s) v s           (* 114-117 *)
  | NPredArg f q p rel =>                                           (* 122-126 *)
      call n (fun v s =>
        let s := match f with None => s | Some x => visit_word x v s end in
        let s := match q with None => s | Some x => visit_word x v s end in
        let s := visit p v s in
        match rel with None => s | Some x => visit x v s end) v s
  | NPredRel p => call n (fun v s => visit p v s) v s               (* 131-132 *)
  | NAdverb p => call n (fun v s => visit p v s) v s                (* 140-141 *)
  | NPrep p a => call n (fun v s => visit a v (visit p v s)) v s    (* 146-148 *)
  | NPredContent p => call n (fun v s => visit p v s) v s           (* 153-154 *)
  | NParen kio ki d =>                                              (* 162-165 *)
      call n (fun v s =>
        let s := visit_word kio v s in
        let s := call (NDiscourse d) (fun v s => all visit v d s) v s in
        visit_word ki v s) v s
  | NIncidental ju st => call n (fun v s => visit st v (visit_word ju v s)) v s (* 167-169 *)
  | NVocative hu a => call n (fun v s => visit a v (visit_word hu v s)) v s (* 171-173 *)
  | NInterjection w => call n (fun v s => visit_word w v s) v s     (* 175-176 *)
  | NSpace w => call n (fun v s => visit_word w v s) v s            (* 178-179 *)
  | NCoP k to0 to1 ru l r =>
      let raw := fun v s =>                                         (* 181-192 *)
        match to0 with
        | None => visit r v (visit_word ru v (visit l v s))
        | Some t =>
            let s := visit l v (visit_word ru v (visit_word t v s)) in
            let s := match to1 with None => s | Some x => visit_word x v s end in
            visit r v s
        end in
      match k with
      | CRaw => call n raw v s
      | _ => call n (call (NCoP CRaw to0 to1 ru l r) raw) v s       (* 59-60 and alike *)
      end
  | NLU k lu st =>
      let raw := fun v s => visit st v (visit_word lu v s) in       (* 194-196 *)
      match k with
      | LRaw => call n raw v s
      | _ => call n (call (NLU LRaw lu st) raw) v s                 (* 104-105 and alike *)
      end
  | NWord w => visit_word w v s
  end
(* the case of *Word, visit.go:198-199 *)
with visit_word (w : word) (v : V) (s : S) {struct w} : S :=
  match w with
  | Wd _ _ _ m => call (NWord w) (fun v s => match m with None => s | Some x => visit x v s end) v s
  end.

End Visit.

(** visit.go:14-20, FuncVisitor: always the same visitor. *)
Definition func_visitor {S : Type} (f : option node -> S -> S) (v : unit) (n : option node) (s : S) : option unit * S :=
  (Some v, f n s).

(** ** ToASCII

    The assignments of ToASCII change words of the tree.  Here the T of each word of a tree
    is the address of that variable, and a store gives the text at each address. *)
Definition store : Type := string -> string.

Definition assign (h : store) (a t : string) : store := fun b => if String.eqb b a then t else h b.

(** ast.go:755-761, ToASCII. *)
Definition to_ascii_run (n : node) (h : store) : store :=
  visit (func_visitor (fun n h =>
    match n with
    | Some (NWord w) => assign h (w_t w) (to_ascii (h (w_t w)))
    | _ => h
    end)) n tt h.
