(** Failures can be shown legibly, since their labels come from the grammar. *)

From Coq Require Import String Ascii NArith ZArith List Bool Arith Lia FMapPositive.
From Verif Require Import Base Utf8 PegSyntax Peg Grammar PegToaq PegFacts Ast Parser ErrFacts App Shown Dedup Report ReportFacts Main MainSpec MainApi LogicString.
Import ListNotations.
Open Scope string_scope.
Open Scope list_scope.

Section Labels.
Variable G : positive -> rule.
Variable is_punct : N -> bool.
Variable text : string.

Fixpoint wants_ok (e : expr) : bool :=
  match e with
  | ELit s => want_ok (show_lit s)
  | EClass rs => want_ok (show_class rs)
  | EAny | EPunct | ECall _ => true
  | ESeq a b | EChoice a b => wants_ok a && wants_ok b
  | EPlus a | EOpt a | ESub a | ELabel _ a | EAction _ _ a => wants_ok a
  | EAnd a | ENot a => want_ok (Peg.show G e) && wants_ok a
  end.
Definition rule_ok (r : rule) : bool := name_ok (r_name r) && match r_err r with Some w => want_ok w | None => true end && wants_ok (r_body r).
Hypothesis labels : forall r, rule_ok (G r) = true.
Variable ds : mst.
Variable errPos : Z.

Definition all_readable (ks : list fnode) : Prop := forallb readable ks = true.
Definition memo_readable (st : fst_) : Prop := forall r pos f, m2_get (s_fail st) r pos = Some f -> readable f = true.
Definition call_readable (call : positive -> nat -> fst_ -> option (option nat * fnode * fst_)) : Prop :=
  forall r pos st o f st', memo_readable st -> call r pos st = Some (o, f, st') -> memo_readable st' /\ readable f = true.

Lemma readable_app a b : all_readable a -> all_readable b -> all_readable (a ++ b).
Proof. unfold all_readable. intros A B. now rewrite forallb_app, A, B. Qed.
Lemma fail_at_readable p want st o ks st' : want_ok want = true -> memo_readable st -> fail_at errPos p want st = Some (o, ks, st') -> memo_readable st' /\ all_readable ks.
Proof.
  intros W H. unfold fail_at, want_at. destruct (errPos <=? Z.of_nat p)%Z; intros E; injection E as <- <- <-; (split; [exact H|]); [|reflexivity].
  unfold all_readable. cbn [forallb readable]. now rewrite W.
Qed.

Notation floop call e1 :=
  (fix loop (n : nat) (pos : nat) (ks : list fnode) (st : fst_) {struct n} : fres :=
     match n with
     | O => None
     | S n' =>
         match fai G is_punct text call errPos e1 pos st with
         | Some (Some pos1, k1, st1) => loop n' pos1 (ks ++ k1) st1
         | Some (None, k1, st1) => Some (Some pos, ks ++ k1, st1)
         | None => None
         end
     end).

Lemma fai_readable call : call_readable call -> forall e pos st o ks st', wants_ok e = true -> memo_readable st -> fai G is_punct text call errPos e pos st = Some (o, ks, st') ->
  memo_readable st' /\ all_readable ks.
Proof.
  intros Hc. induction e; intros pos st o ks st' W Hst E; cbn [fai] in E; cbn [wants_ok] in W.
  - destruct (has_lit text s pos); [|eapply fail_at_readable; eauto]. injection E as <- <- <-. split; [exact Hst|reflexivity].
  - destruct (next text pos) as [r w]. destruct (mem_rune r rs); [|eapply fail_at_readable; eauto]. injection E as <- <- <-. split; [exact Hst|reflexivity].
  - destruct (any_ok text pos); [|eapply fail_at_readable; [|exact Hst|exact E]; reflexivity]. injection E as <- <- <-. split; [exact Hst|reflexivity].
  - destruct (any_ok text pos); [|eapply fail_at_readable; [|exact Hst|exact E]; reflexivity]. destruct (next text pos) as [r w]. destruct (is_punct r); [|eapply fail_at_readable; [|exact Hst|exact E]; reflexivity].
    injection E as <- <- <-. split; [exact Hst|reflexivity].
  - destruct (call r pos st) as [[[p kid] st1]|] eqn:Ec; [|discriminate]. injection E as <- <- <-. destruct (Hc _ _ _ _ _ _ Hst Ec) as (A & B). split; [exact A|].
    destruct (_ || _)%bool; [|reflexivity]. unfold all_readable. cbn [forallb]. now rewrite B.
  - apply andb_prop in W as [W1 W2]. destruct (fai G is_punct text call errPos e1 pos st) as [[[[p1|] k1] st1]|] eqn:E1; [| |discriminate].
    + destruct (IHe1 _ _ _ _ _ W1 Hst E1) as (A & B).
      destruct (fai G is_punct text call errPos e2 p1 st1) as [[[p2 k2] st2]|] eqn:E2; [|discriminate]. injection E as <- <- <-.
      destruct (IHe2 _ _ _ _ _ W2 A E2) as (A2 & B2). split; [exact A2|now apply readable_app].
    + injection E as <- <- <-. eapply IHe1; eassumption.
  - apply andb_prop in W as [W1 W2]. destruct (fai G is_punct text call errPos e1 pos st) as [[[[p1|] k1] st1]|] eqn:E1; [| |discriminate].
    + injection E as <- <- <-. eapply IHe1; eassumption.
    + destruct (IHe1 _ _ _ _ _ W1 Hst E1) as (A & B).
      destruct (fai G is_punct text call errPos e2 pos st1) as [[[p2 k2] st2]|] eqn:E2; [|discriminate]. injection E as <- <- <-.
      destruct (IHe2 _ _ _ _ _ W2 A E2) as (A2 & B2). split; [exact A2|now apply readable_app].
  - destruct (fai G is_punct text call errPos e pos st) as [[[[p1|] k1] st1]|] eqn:E1; [| |discriminate].
    + destruct (IHe _ _ _ _ _ W Hst E1) as (A & B). clear E1.
      assert (HL : forall n p1 k1 st1, memo_readable st1 -> all_readable k1 -> floop call e n p1 k1 st1 = Some (o, ks, st') -> memo_readable st' /\ all_readable ks).
      { clear p1 k1 st1 A B E. induction n as [|n IHn]; intros p1 k1 st1 A B E; [discriminate|].
        destruct (fai G is_punct text call errPos e p1 st1) as [[[[p2|] k2] st2]|] eqn:E2; [| |discriminate]; destruct (IHe _ _ _ _ _ W A E2) as (A2 & B2).
        * eapply IHn; [exact A2| |exact E]. now apply readable_app.
        * injection E as <- <- <-. split; [exact A2|now apply readable_app]. }
      apply (HL (S (String.length text)) p1 k1 st1 A B E).
    + injection E as <- <- <-. eapply IHe; eassumption.
  - destruct (fai G is_punct text call errPos e pos st) as [[[[p1|] k1] st1]|] eqn:E1; [| |discriminate]; injection E as <- <- <-; eapply IHe; eassumption.
  - apply andb_prop in W as [W1 W2]. destruct (fai G is_punct text call errPos e pos st) as [[[[p1|] k1] st1]|] eqn:E1; [| |discriminate]; destruct (IHe _ _ _ _ _ W2 Hst E1) as (A & B).
    + injection E as <- <- <-. split; [exact A|reflexivity].
    + eapply fail_at_readable; [|exact A|exact E]; exact W1.
  - apply andb_prop in W as [W1 W2]. destruct (fai G is_punct text call errPos e pos st) as [[[[p1|] k1] st1]|] eqn:E1; [| |discriminate]; destruct (IHe _ _ _ _ _ W2 Hst E1) as (A & B).
    + eapply fail_at_readable; [|exact A|exact E]; exact W1.
    + injection E as <- <- <-. split; [exact A|reflexivity].
  - eapply IHe; eassumption.
  - eapply IHe; eassumption.
  - eapply IHe; eassumption.
Qed.

Lemma failMemo_readable r pos st o f st' : memo_readable st -> failMemo ds r pos errPos st = Some (o, f, st') -> memo_readable st' /\ readable f = true.
Proof.
  intros Hst. unfold failMemo. cbn [fst snd].
  destruct (s_lastFail ds <? Z.of_nat pos)%Z; [intro H; injection H as <- <- <-; split; [exact Hst|reflexivity]|].
  destruct (delta ds r pos) as [dp de]. destruct (Z.of_nat pos + (de - 1) <? errPos)%Z.
  - destruct (0 <? dp)%Z; intro H; injection H as <- <- <-; (split; [exact Hst|reflexivity]).
  - destruct (m2_get (s_fail st) r pos) as [f0|] eqn:Ef; [|discriminate]. assert (C0 := Hst _ _ _ Ef).
    destruct (dp <? 0)%Z; [|destruct (0 <? dp)%Z; [|discriminate]]; intro H; injection H as <- <- <-; (split; [exact Hst|exact C0]).
Qed.

Lemma fail_readable fuel : call_readable (fail_of G is_punct text ds errPos fuel).
Proof.
  induction fuel as [|fuel IH]; intros r pos st o f st' Hst E; [discriminate|]. cbn [fail_of] in E.
  destruct (failMemo ds r pos errPos st) as [[[o0 f0] st0]|] eqn:Em.
  { injection E as <- <- <-. eapply failMemo_readable; eassumption. }
  assert (L := labels r). unfold rule_ok in L. apply andb_prop in L as [L W]. apply andb_prop in L as [N Er].
  destruct (fai G is_punct text (fail_of G is_punct text ds errPos fuel) errPos (r_body (G r)) pos (Fst (s_fail st) (N.succ (s_next st)))) as [[[p ks] st1]|] eqn:Ef; [|discriminate].
  destruct (fai_readable _ IH _ _ (Fst (s_fail st) (N.succ (s_next st))) _ _ _ W Hst Ef) as (A & B). injection E as <- <- <-.
  set (f := match r_err (G r), p with Some _, Some _ => FNode (s_next st) (r_name (G r)) pos "" [] | Some w, None => FNode (s_next st) (r_name (G r)) pos w []
    | None, _ => FNode (s_next st) (r_name (G r)) pos "" ks end).
  assert (F : readable f = true).
  { unfold f. destruct (r_err (G r)); [destruct p|]; cbn [readable forallb]; rewrite N; cbn; rewrite ?Er, ?B; reflexivity. }
  split; [|exact F].
  intros r' pos' f' Hf. cbn [s_fail] in Hf. destruct (key_dec r r' pos pos') as [K|Nk].
  - injection K as -> ->. rewrite m2_gss in Hf. injection Hf as <-. exact F.
  - rewrite m2_gso in Hf by exact Nk. exact (A _ _ _ Hf).
Qed.
End Labels.

Lemma toaq_labels_check : forallb (fun p => rule_ok toaq (snd p)) (PositiveMap.elements rule_map) = true.
Proof. vm_compute. reflexivity. Qed.
Lemma toaq_labels r : rule_ok toaq (toaq r) = true.
Proof.
  change (rule_ok toaq match PositiveMap.find r rule_map with Some x => x | None => no_rule end = true).
  destruct (PositiveMap.find r rule_map) as [x|] eqn:E; [|reflexivity].
  pose proof toaq_labels_check as H. rewrite forallb_forall in H. apply (H (r, x)). apply PositiveMap.elements_correct. exact E.
Qed.

Lemma after_readable s : forall n, readable n = true -> readable (after s n) = true.
Proof.
  apply (fnode_ind2 (fun n => readable n = true -> readable (after s n) = true)). intros i name p want kids A R. cbn [readable] in R. apply andb_prop in R as [R K].
  cbn [after]. destruct (PositiveMap.find (N.succ_pos i) s) as [bs|]; cbn [readable]; rewrite R; cbn [andb].
  - revert bs K. induction A as [|k kids Ak Al IH]; intros [|b bs] K; try reflexivity. cbn [forallb] in K. apply andb_prop in K as [Kk Kl]. destruct b; cbn [forallb]; rewrite ?(Ak Kk), (IH _ Kl); reflexivity.
  - induction A as [|k kids Ak Al IH]; [reflexivity|]. cbn [map forallb] in *. apply andb_prop in K as [Kk Kl]. now rewrite (Ak Kk), (IH Kl).
Qed.

Lemma error_readable is_punct input e : fst (tree is_punct (new_parser input)) = Ok (Err e) -> readable (dedup (pe_tree e)) = true.
Proof.
  intros E. apply after_readable. unfold tree in E. destruct (parse is_punct r_full_text 0 (new_parser input)) as [x p1] eqn:P.
  destruct x as [[e'|]|q|]; cbn [fst] in E; [|destruct (node_of _ _ _ _ _ _ _ _) as [[o ?]|]; cbn in E; [destruct o as [[? ?]|]; discriminate|discriminate]|discriminate|discriminate].
  injection E as ->. unfold parse in P. cbn [q_text new_parser q_m q_fail q_node q_act] in P. destruct (_ <? 0)%nat; [discriminate|].
  destruct (accepts _ _ _ _ _ _ _) as [[[dp perr] m1]|]; [|discriminate]. destruct (0 <=? dp)%Z; [discriminate|].
  destruct (fail_of _ _ _ _ _ _ _ _ _) as [[[o f] fs]|] eqn:F; [|discriminate]. destruct (simple_error input f) as [e0|q|] eqn:Es; try discriminate. injection P as -> _.
  rewrite (simple_tree _ _ _ Es). eapply (fail_readable toaq is_punct input toaq_labels m1 perr); [|exact F]. intros r pos f0 X. cbn [fst0 s_fail] in X; now rewrite m2_get_empty in X.
Qed.

Lemma pretty_failure : forall n tab m, failure_of n = failure_of m -> pretty_fail tab n = pretty_fail tab m.
Proof.
  apply (fnode_ind2 (fun n => forall tab m, failure_of n = failure_of m -> pretty_fail tab n = pretty_fail tab m)).
  intros i name p want kids A tab [i' name' p' want' kids'] E.
  destruct kids as [|k kids], kids' as [|k' kids']; cbn [failure_of] in E; try discriminate.
  - injection E as -> ->. reflexivity.
  - cbn [map] in E. injection E as -> -> Ek El. inversion A as [|? ? Ak Al]; subst.
    assert (Q : forall t, map (fun k => (newline ++ pretty_fail (t ++ tab_char) k ++ ",")%string) (k :: kids) = map (fun k => (newline ++ pretty_fail (t ++ tab_char) k ++ ",")%string) (k' :: kids')).
    { intros t. cbn [map]. f_equal; [now rewrite (Ak _ _ Ek)|]. clear A Ak Ek. revert kids' El. induction Al as [|x l Ax Al IH]; intros [|x' l'] El; try discriminate; [reflexivity|]. cbn [map] in *. injection El as E1 E2. rewrite (Ax _ _ E1). f_equal. now apply IH. }
    assert (P0 := Ak "" k' Ek).
    assert (LL : length kids = length kids') by (rewrite <- (map_length failure_of kids), El; apply map_length).
    destruct k as [a1 a2 a3 a4 [|c1 cs]], k' as [b1 b2 b3 b4 [|d1 ds]]; cbn [failure_of] in Ek; try discriminate Ek.
    + destruct kids, kids'; try discriminate LL.
      * cbn [pretty_fail] in *. now rewrite P0.
      * change (pretty_fail tab (FNode i name' p' want (FNode a1 a2 a3 a4 [] :: f :: kids))) with (tab ++ name' ++ "[" ++ itoa p' ++ "]{" ++ elems tab (FNode a1 a2 a3 a4 [] :: f :: kids) ++ newline ++ tab ++ "}")%string.
        change (pretty_fail tab (FNode i' name' p' want' (FNode b1 b2 b3 b4 [] :: f0 :: kids'))) with (tab ++ name' ++ "[" ++ itoa p' ++ "]{" ++ elems tab (FNode b1 b2 b3 b4 [] :: f0 :: kids') ++ newline ++ tab ++ "}")%string.
        unfold elems. now rewrite Q.
    + change (pretty_fail tab (FNode i name' p' want (FNode a1 a2 a3 a4 (c1 :: cs) :: kids))) with (tab ++ name' ++ "[" ++ itoa p' ++ "]{" ++ elems tab (FNode a1 a2 a3 a4 (c1 :: cs) :: kids) ++ newline ++ tab ++ "}")%string.
      change (pretty_fail tab (FNode i' name' p' want' (FNode b1 b2 b3 b4 (d1 :: ds) :: kids'))) with (tab ++ name' ++ "[" ++ itoa p' ++ "]{" ++ elems tab (FNode b1 b2 b3 b4 (d1 :: ds) :: kids') ++ newline ++ tab ++ "}")%string.
      unfold elems. now rewrite Q.
Qed.

Lemma path_cancel (path a b : string) : (line (path ++ a) = line (path ++ b) -> a = b)%string.
Proof.
  unfold line. intros E. apply PrettyFacts.cancel_r1 in E. now apply PrettyFacts.cancel_l in E.
Qed.

Theorem report_inj is_punct is_punct' U U' path input input' out out' e e' :
  runs is_punct U path input (out, Exit 1) -> runs is_punct' U' path input' (out', Exit 1) ->
  fst (tree is_punct (new_parser input)) = Ok (Err e) -> fst (tree is_punct' (new_parser input')) = Ok (Err e') ->
  (out = out' <-> failure_of (dedup (pe_tree e)) = failure_of (dedup (pe_tree e')) /\ error_string e = error_string e').
Proof.
  intros R R' E E'. apply main_error in R as (e1 & E1 & ->). rewrite E in E1. injection E1 as <-. apply main_error in R' as (e1 & E1 & ->). rewrite E' in E1. injection E1 as <-.
  apply error_readable in E, E'. split.
  - intros Q. unfold line in Q. rewrite !ShownRead.sapp_assoc in Q.
    destruct (report_reads _ "" _ "" _ _ E E' (or_introl eq_refl) Q) as [F S]. split; [exact F|]. apply (path_cancel path). unfold line. now rewrite !ShownRead.sapp_assoc.
  - intros [F ->]. now rewrite (pretty_failure _ "" _ F).
Qed.
