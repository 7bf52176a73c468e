(** Concrete trees. *)

From Coq Require Import String Ascii NArith List Bool Lia.
From Verif Require Import Base PegSyntax Tone Ast Parser ParserSpec Visit VisitSpec VisitFacts Equal EqualSpec EqualFacts Braces BracesSpec
  BracesFacts AstApi ModSpec ModWords SpanSpec SpanFacts.
Import ListNotations.
Open Scope string_scope.
Open Scope list_scope.

(** The tree of a text; only used for concrete texts. *)
Definition parsed (text : string) : option node :=
  match fst (text_of ascii_punct (new_parser text)) with Ok (Got o) => o | _ => None end.

Lemma parsed_ok text n : parsed text = Some n -> fst (text_of ascii_punct (new_parser text)) = Ok (Got (Some n)).
Proof. unfold parsed. destruct (fst _) as [[[m|]|]| |]; congruence. Qed.

(** The raw phrases of a tree in order. *)
Definition raws (n : node) : list node :=
  flat_map (fun o => match o with Some (NCoP CRaw a b c d e) => [NCoP CRaw a b c d e] | Some (NLU LRaw a b) => [NLU LRaw a b] | _ => [] end)
    (visit (func_visitor record) n tt []).

Lemma raws_below n m : In m (raws n) -> below m n.
Proof.
  unfold raws. rewrite in_flat_map. intros (o & I & M). apply visit_below.
  destruct o as [[]|]; try contradiction; destruct k; try contradiction; destruct M as [<-|[]]; exact I.
Qed.

Lemma equal_panics :
  exists text n m, fst (text_of ascii_punct (new_parser text)) = Ok (Got (Some n)) /\ below m n /\
    equal m (Some m) = Panic (PString "unknown node type *ast.CoP").
Proof.
  exists "hio? ji/ ru suq/". destruct (parsed "hio? ji/ ru suq/") as [n|] eqn:E; [|vm_compute in E; discriminate].
  exists n. assert (R := raws_below n). destruct (raws n) as [|m l] eqn:L.
  - exfalso. vm_compute in E. injection E as <-. vm_compute in L. discriminate.
  - exists m. split; [apply parsed_ok; exact E|]. split; [apply R; left; reflexivity|].
    vm_compute in E. injection E as <-. vm_compute in L. injection L as <- _. vm_compute. reflexivity.
Qed.

Lemma equal_case :
  exists n a b, fst (text_of ascii_punct (new_parser "hio? da hio? da ")) = Ok (Got (Some n)) /\ below a n /\ below b n /\
    a <> b /\ equal a (Some b) = Ok true /\ equal a (Some n) = Ok false.
Proof.
  destruct (parsed "hio? da hio? da ") as [n|] eqn:E; [|vm_compute in E; discriminate].
  assert (B : forall k, In k (flat_map kids (kids n)) -> below k n).
  { intros k K. apply in_flat_map in K. destruct K as (m & M & K). eapply WKid; [exact M|]. eapply WKid; [exact K|]. constructor. }
  exists n. destruct (flat_map kids (kids n)) as [|a [|b [|]]] eqn:L;
    try (exfalso; vm_compute in E; injection E as <-; vm_compute in L; discriminate).
  exists a, b. split; [apply parsed_ok; exact E|]. split; [apply B; left; reflexivity|]. split; [apply B; right; left; reflexivity|].
  vm_compute in E. injection E as <-. vm_compute in L. injection L as <- <-.
  split; [discriminate|]. split; vm_compute; reflexivity.
Qed.

(** A hand-made tree that the parser does not give. *)
Lemma braces_empty_item :
  exists n, braces_string n = "(x )" /\ ~ exists l, says n l /\ braced l (braces_string n).
Proof.
  exists (NText (Some (NInterjection (Wd "x" 0 1 None))) []). split; [reflexivity|].
  intros (l & S & B). apply says_spec in S. subst l. vm_compute in B. inversion B as [|? ? parts L P E]; subst.
  remember ["x"] as l eqn:El. inversion P as [|? ts1 s1 ts2 ss P1 P2]; subst; [cbn in L; lia|].
  pose proof (proj1 printed_some _ _ _ P1) as N1. destruct ts1 as [|x ts1]; [congruence|].
  match goal with Q : _ ++ _ = ["x"] |- _ => injection Q as _ Q; apply app_eq_nil in Q; destruct Q as [_ ->] end.
  destruct ss as [|s2 ss]; [cbn in L; lia|].
  apply (proj2 printed_some _ _ _ P2); [discriminate|reflexivity].
Qed.

Lemma braces_case :
  exists n, fst (text_of ascii_punct (new_parser "hio? ji/ roi ho/ suq/")) = Ok (Got (Some n)) /\
    braces_string n = "(hỉo {[jí roı hó] súq})" /\ texts n = ["hỉo"; "jí"; "roı"; "hó"; "súq"].
Proof. eexists. split; [vm_compute; reflexivity|]. split; vm_compute; reflexivity. Qed.

(** A visitor that does not go into phrases with a connective. *)
Definition shallow (v : unit) (n : option node) (s : list (option node)) : option unit * list (option node) :=
  (match n with Some (NCoP _ _ _ _ _ _) => None | _ => Some v end, s ++ [n]).

Lemma visit_case :
  exists n, fst (text_of ascii_punct (new_parser "hio? ji/ ru suq/")) = Ok (Got (Some n)) /\
    nodes (visit (func_visitor record) n tt []) = 22 /\ nils (visit (func_visitor record) n tt []) = 22 /\
    nodes (visit shallow n tt []) = 10 /\ nils (visit shallow n tt []) = 9.
Proof. eexists. split; [vm_compute; reflexivity|]. repeat split; vm_compute; reflexivity. Qed.

(** ** Start and End *)

(** The only node that is visited in [n] and satisfies [f], for concrete trees. *)
Definition pick (f : node -> bool) (n : node) : list node :=
  flat_map (fun o => match o with Some m => if f m then [m] else [] | _ => [] end) (visit (func_visitor record) n tt []).

Lemma pick_below f n m : In m (pick f n) -> below m n.
Proof.
  unfold pick. rewrite in_flat_map. intros (o & I & M). apply visit_below.
  destruct o as [k|]; [|contradiction]. destruct (f k); [|contradiction]. destruct M as [<-|[]]; exact I.
Qed.

Definition is_predication (n : node) : bool := match n with NPredication _ _ _ => true | _ => false end.

Lemma end_panics :
  exists text n m, fst (text_of ascii_punct (new_parser text)) = Ok (Got (Some n)) /\ below m n /\
    node_start m = Ok 0 /\ node_end m = Panic PRuntime.
Proof.
  exists "hio?". destruct (parsed "hio?") as [n|] eqn:E; [|vm_compute in E; discriminate].
  exists n. pose proof (pick_below is_predication n) as P. destruct (pick is_predication n) as [|m l] eqn:L.
  - exfalso. vm_compute in E. injection E as <-. vm_compute in L. discriminate.
  - exists m. split; [apply parsed_ok; exact E|]. split; [apply P; left; reflexivity|].
    vm_compute in E. injection E as <-. vm_compute in L. injection L as <- _. split; vm_compute; reflexivity.
Qed.

Lemma start_panics :
  exists n, fst (text_of ascii_punct (new_parser "")) = Ok (Got (Some n)) /\ node_start n = Panic PRuntime /\ node_end n = Panic PRuntime.
Proof. eexists. split; [vm_compute; reflexivity|]. split; vm_compute; reflexivity. Qed.

Lemma span_case :
  exists n, fst (text_of ascii_punct (new_parser " hio? ji/ hu suq/ ")) = Ok (Got (Some n)) /\
    node_start n = Ok 1 /\ node_end n = Ok 9 /\ ~ wordless n /\ ~ bare_end n.
Proof.
  destruct (parsed " hio? ji/ hu suq/ ") as [n|] eqn:E; [|vm_compute in E; discriminate].
  exists n. split; [apply parsed_ok; exact E|]. vm_compute in E. injection E as <-.
  split; [vm_compute; reflexivity|]. match goal with |- node_end ?n = _ /\ _ => set (t := n) end.
  assert (R : node_end t = Ok 9) by (vm_compute; reflexivity). split; [exact R|]. split.
  - intro W. apply wordless_start in W. destruct W as [_ W]. congruence.
  - intro W. apply bare_end_panics in W. congruence.
Qed.

(** ** mod *)

Definition is_paren (n : node) : bool := match n with NParen _ _ _ => true | _ => false end.
Definition is_vocative (n : node) : bool := match n with NVocative _ _ => true | _ => false end.

Definition the (f : node -> bool) (text : string) : node :=
  match parsed text with Some n => hd n (pick f n) | None => NDiscourse [] end.

(** A parenthetical and a vocative as the parser makes them.  The words of the vocative
    come before the closing word. *)
Lemma mod_inside_paren :
  let n := the is_paren "kio hio? ki" in
  let m := the is_vocative "hu ji/" in
  exists n', mod_node (Some m) n = Ok n' /\
    map (fun t => fst (fst t)) (toks n) = ["kıo"; " "; "hỉo"; " "; "kı"] /\
    map (fun t => fst (fst t)) (toks n') = ["kıo"; " "; "hỉo"; " "; "hu"; " "; "jí"; "kı"] /\
    toks n' <> toks n ++ toks m.
Proof. eexists. split; [vm_compute; reflexivity|]. split; [vm_compute; reflexivity|]. split; [vm_compute; reflexivity|]. vm_compute. discriminate. Qed.

Lemma mod_laws :
  (forall m n n', mod_node (Some m) n = Ok n' -> grafted m n n' /\ bare n' = bare n) /\
  (forall m n n', mod_node (Some m) n = Ok n' -> (forall kio ki d, ~ below (NParen kio ki d) n) -> toks n' = toks n ++ toks m) /\
  (forall n n', mod_node None n = Ok n' -> n' = n).
Proof. split; [exact mod_grafts|]. split; [exact mod_appends|exact (proj1 mod_none)]. Qed.

Lemma mod_case :
  let n := the is_predication "hio? ji/ " in
  let m := the is_vocative "hu suq/" in
  exists n', mod_node (Some m) n = Ok n' /\ (forall kio ki d, ~ below (NParen kio ki d) n) /\
    map (fun t => fst (fst t)) (toks n) = ["hỉo"; " "; "jí"; " "] /\
    map (fun t => fst (fst t)) (toks n') = ["hỉo"; " "; "jí"; " "; "hu"; " "; "súq"].
Proof.
  eexists. split; [vm_compute; reflexivity|]. split.
  - intros kio ki d B. apply visit_below in B. vm_compute in B.
    repeat (destruct B as [B|B]; [discriminate|]). exact B.
  - split; vm_compute; reflexivity.
Qed.

(** ** ToASCII *)

(** A tree with the addresses a to d, and what is there. *)
Definition skeleton : node :=
  NPredication (NWordPredicate (Wd "a" 0 5 (Some (NSpace (Wd "b" 5 6 None)))))
    (Some [NPredArg None (Some (Wd "c" 6 8 None)) (NWordPredicate (Wd "d" 8 11 None)) None]) None.
Definition texts_at (a : string) : string :=
  if String.eqb a "a" then "hỉo" else if String.eqb a "b" then " " else if String.eqb a "c" then "sa" else
  if String.eqb a "d" then "jí" else "á".

Lemma to_ascii_case :
  NoDup (map w_t (words skeleton)) /\
  retext (to_ascii_run skeleton texts_at) skeleton =
    NPredication (NWordPredicate (Wd "hio?" 0 5 (Some (NSpace (Wd " " 5 6 None)))))
      (Some [NPredArg None (Some (Wd "sa" 6 8 None)) (NWordPredicate (Wd "ji/" 8 11 None)) None]) None /\
  to_ascii_run skeleton texts_at "e" = "á".
Proof.
  split; [|split; vm_compute; reflexivity]. cbn. repeat constructor; cbn; intuition discriminate.
Qed.
