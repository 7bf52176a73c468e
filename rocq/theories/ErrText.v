(** What the messages of the parser are made of is UTF-8, except for the ten bytes of the text. *)

From Coq Require Import String Ascii NArith ZArith List Bool Arith Lia FMapPositive.
From Verif Require Import Base Utf8 PegSyntax Peg Grammar PegToaq PegFacts Ast Parser ErrFacts App Shown Dedup DedupSpec FailFacts DedupFacts MsgFacts LogicString Utf8Valid Utf8Shown.
Import ListNotations.
Open Scope string_scope.
Open Scope list_scope.

(** The labels are UTF-8. *)
Definition want_ok (s : string) : bool := String.eqb (of_runes (runes s)) s.
Definition name_ok (s : string) : bool := true.
Fixpoint readable (n : fnode) : bool :=
  let 'FNode _ name _ want kids := n in name_ok name && want_ok want && forallb readable kids.

Section Labels.
Variable G : positive -> rule.
Variable is_punct : N -> bool.
Variable text : string.

Fixpoint wants_ok (e : expr) : bool :=
  match e with
  | ELit s => want_ok (show_lit s)
  | EClass rs => want_ok (show_class rs)
  | EAny | EPunct | ECall _ => true
  | ESeq a b | EChoice a b => wants_ok a && wants_ok b
  | EPlus a | EOpt a | ESub a | ELabel _ a | EAction _ _ a => wants_ok a
  | EAnd a | ENot a => want_ok (Peg.show G e) && wants_ok a
  end.
Definition rule_ok (r : rule) : bool := name_ok (r_name r) && match r_err r with Some w => want_ok w | None => true end && wants_ok (r_body r).
Hypothesis labels : forall r, rule_ok (G r) = true.
Variable ds : mst.
Variable errPos : Z.

Definition all_readable (ks : list fnode) : Prop := forallb readable ks = true.
Definition memo_readable (st : fst_) : Prop := forall r pos f, m2_get (s_fail st) r pos = Some f -> readable f = true.
Definition call_readable (call : positive -> nat -> fst_ -> option (option nat * fnode * fst_)) : Prop :=
  forall r pos st o f st', memo_readable st -> call r pos st = Some (o, f, st') -> memo_readable st' /\ readable f = true.

Lemma readable_app a b : all_readable a -> all_readable b -> all_readable (a ++ b).
Proof. unfold all_readable. intros A B. now rewrite forallb_app, A, B. Qed.
Lemma fail_at_readable p want st o ks st' : want_ok want = true -> memo_readable st -> fail_at errPos p want st = Some (o, ks, st') -> memo_readable st' /\ all_readable ks.
Proof.
  intros W H. unfold fail_at, want_at. destruct (errPos <=? Z.of_nat p)%Z; intros E; injection E as <- <- <-; (split; [exact H|]); [|reflexivity].
  unfold all_readable. cbn [forallb readable]. now rewrite W.
Qed.

Notation floop call e1 :=
  (fix loop (n : nat) (pos : nat) (ks : list fnode) (st : fst_) {struct n} : fres :=
     match n with
     | O => None
     | S n' =>
         match fai G is_punct text call errPos e1 pos st with
         | Some (Some pos1, k1, st1) => loop n' pos1 (ks ++ k1) st1
         | Some (None, k1, st1) => Some (Some pos, ks ++ k1, st1)
         | None => None
         end
     end).

Lemma fai_readable call : call_readable call -> forall e pos st o ks st', wants_ok e = true -> memo_readable st -> fai G is_punct text call errPos e pos st = Some (o, ks, st') ->
  memo_readable st' /\ all_readable ks.
Proof.
  intros Hc. induction e; intros pos st o ks st' W Hst E; cbn [fai] in E; cbn [wants_ok] in W.
  - destruct (has_lit text s pos); [|eapply fail_at_readable; eauto]. injection E as <- <- <-. split; [exact Hst|reflexivity].
  - destruct (next text pos) as [r w]. destruct (mem_rune r rs); [|eapply fail_at_readable; eauto]. injection E as <- <- <-. split; [exact Hst|reflexivity].
  - destruct (any_ok text pos); [|eapply fail_at_readable; [|exact Hst|exact E]; reflexivity]. injection E as <- <- <-. split; [exact Hst|reflexivity].
  - destruct (any_ok text pos); [|eapply fail_at_readable; [|exact Hst|exact E]; reflexivity]. destruct (next text pos) as [r w]. destruct (is_punct r); [|eapply fail_at_readable; [|exact Hst|exact E]; reflexivity].
    injection E as <- <- <-. split; [exact Hst|reflexivity].
  - destruct (call r pos st) as [[[p kid] st1]|] eqn:Ec; [|discriminate]. injection E as <- <- <-. destruct (Hc _ _ _ _ _ _ Hst Ec) as (A & B). split; [exact A|].
    destruct (_ || _)%bool; [|reflexivity]. unfold all_readable. cbn [forallb]. now rewrite B.
  - apply andb_prop in W as [W1 W2]. destruct (fai G is_punct text call errPos e1 pos st) as [[[[p1|] k1] st1]|] eqn:E1; [| |discriminate].
    + destruct (IHe1 _ _ _ _ _ W1 Hst E1) as (A & B).
      destruct (fai G is_punct text call errPos e2 p1 st1) as [[[p2 k2] st2]|] eqn:E2; [|discriminate]. injection E as <- <- <-.
      destruct (IHe2 _ _ _ _ _ W2 A E2) as (A2 & B2). split; [exact A2|now apply readable_app].
    + injection E as <- <- <-. eapply IHe1; eassumption.
  - apply andb_prop in W as [W1 W2]. destruct (fai G is_punct text call errPos e1 pos st) as [[[[p1|] k1] st1]|] eqn:E1; [| |discriminate].
    + injection E as <- <- <-. eapply IHe1; eassumption.
    + destruct (IHe1 _ _ _ _ _ W1 Hst E1) as (A & B).
      destruct (fai G is_punct text call errPos e2 pos st1) as [[[p2 k2] st2]|] eqn:E2; [|discriminate]. injection E as <- <- <-.
      destruct (IHe2 _ _ _ _ _ W2 A E2) as (A2 & B2). split; [exact A2|now apply readable_app].
  - destruct (fai G is_punct text call errPos e pos st) as [[[[p1|] k1] st1]|] eqn:E1; [| |discriminate].
    + destruct (IHe _ _ _ _ _ W Hst E1) as (A & B). clear E1.
      assert (HL : forall n p1 k1 st1, memo_readable st1 -> all_readable k1 -> floop call e n p1 k1 st1 = Some (o, ks, st') -> memo_readable st' /\ all_readable ks).
      { clear p1 k1 st1 A B E. induction n as [|n IHn]; intros p1 k1 st1 A B E; [discriminate|].
        destruct (fai G is_punct text call errPos e p1 st1) as [[[[p2|] k2] st2]|] eqn:E2; [| |discriminate]; destruct (IHe _ _ _ _ _ W A E2) as (A2 & B2).
        * eapply IHn; [exact A2| |exact E]. now apply readable_app.
        * injection E as <- <- <-. split; [exact A2|now apply readable_app]. }
      apply (HL (S (String.length text)) p1 k1 st1 A B E).
    + injection E as <- <- <-. eapply IHe; eassumption.
  - destruct (fai G is_punct text call errPos e pos st) as [[[[p1|] k1] st1]|] eqn:E1; [| |discriminate]; injection E as <- <- <-; eapply IHe; eassumption.
  - apply andb_prop in W as [W1 W2]. destruct (fai G is_punct text call errPos e pos st) as [[[[p1|] k1] st1]|] eqn:E1; [| |discriminate]; destruct (IHe _ _ _ _ _ W2 Hst E1) as (A & B).
    + injection E as <- <- <-. split; [exact A|reflexivity].
    + eapply fail_at_readable; [|exact A|exact E]; exact W1.
  - apply andb_prop in W as [W1 W2]. destruct (fai G is_punct text call errPos e pos st) as [[[[p1|] k1] st1]|] eqn:E1; [| |discriminate]; destruct (IHe _ _ _ _ _ W2 Hst E1) as (A & B).
    + eapply fail_at_readable; [|exact A|exact E]; exact W1.
    + injection E as <- <- <-. split; [exact A|reflexivity].
  - eapply IHe; eassumption.
  - eapply IHe; eassumption.
  - eapply IHe; eassumption.
Qed.

Lemma failMemo_readable r pos st o f st' : memo_readable st -> failMemo ds r pos errPos st = Some (o, f, st') -> memo_readable st' /\ readable f = true.
Proof.
  intros Hst. unfold failMemo. cbn [fst snd].
  destruct (s_lastFail ds <? Z.of_nat pos)%Z; [intro H; injection H as <- <- <-; split; [exact Hst|reflexivity]|].
  destruct (delta ds r pos) as [dp de]. destruct (Z.of_nat pos + (de - 1) <? errPos)%Z.
  - destruct (0 <? dp)%Z; intro H; injection H as <- <- <-; (split; [exact Hst|reflexivity]).
  - destruct (m2_get (s_fail st) r pos) as [f0|] eqn:Ef; [|discriminate]. assert (C0 := Hst _ _ _ Ef).
    destruct (dp <? 0)%Z; [|destruct (0 <? dp)%Z; [|discriminate]]; intro H; injection H as <- <- <-; (split; [exact Hst|exact C0]).
Qed.

Lemma fail_readable fuel : call_readable (fail_of G is_punct text ds errPos fuel).
Proof.
  induction fuel as [|fuel IH]; intros r pos st o f st' Hst E; [discriminate|]. cbn [fail_of] in E.
  destruct (failMemo ds r pos errPos st) as [[[o0 f0] st0]|] eqn:Em.
  { injection E as <- <- <-. eapply failMemo_readable; eassumption. }
  assert (L := labels r). unfold rule_ok in L. apply andb_prop in L as [L W]. apply andb_prop in L as [N Er].
  destruct (fai G is_punct text (fail_of G is_punct text ds errPos fuel) errPos (r_body (G r)) pos (Fst (s_fail st) (N.succ (s_next st)))) as [[[p ks] st1]|] eqn:Ef; [|discriminate].
  destruct (fai_readable _ IH _ _ (Fst (s_fail st) (N.succ (s_next st))) _ _ _ W Hst Ef) as (A & B). injection E as <- <- <-.
  set (f := match r_err (G r), p with Some _, Some _ => FNode (s_next st) (r_name (G r)) pos "" [] | Some w, None => FNode (s_next st) (r_name (G r)) pos w []
    | None, _ => FNode (s_next st) (r_name (G r)) pos "" ks end).
  assert (F : readable f = true).
  { unfold f. destruct (r_err (G r)); [destruct p|]; cbn [readable forallb]; rewrite N; cbn; rewrite ?Er, ?B; reflexivity. }
  split; [|exact F].
  intros r' pos' f' Hf. cbn [s_fail] in Hf. destruct (key_dec r r' pos pos') as [K|Nk].
  - injection K as -> ->. rewrite m2_gss in Hf. injection Hf as <-. exact F.
  - rewrite m2_gso in Hf by exact Nk. exact (A _ _ _ Hf).
Qed.
End Labels.

Lemma toaq_labels_check : forallb (fun p => rule_ok toaq (snd p)) (PositiveMap.elements rule_map) = true.
Proof. vm_compute. reflexivity. Qed.
Lemma toaq_labels r : rule_ok toaq (toaq r) = true.
Proof.
  change (rule_ok toaq match PositiveMap.find r rule_map with Some x => x | None => no_rule end = true).
  destruct (PositiveMap.find r rule_map) as [x|] eqn:E; [|reflexivity].
  pose proof toaq_labels_check as H. rewrite forallb_forall in H. apply (H (r, x)). apply PositiveMap.elements_correct. exact E.
Qed.

Lemma error_readable is_punct input e : fst (tree is_punct (new_parser input)) = Ok (Err e) -> readable (pe_tree e) = true.
Proof.
  intros E. unfold tree in E. destruct (parse is_punct r_full_text 0 (new_parser input)) as [x p1] eqn:P.
  destruct x as [[e'|]|q|]; cbn [fst] in E; [|destruct (node_of _ _ _ _ _ _ _ _) as [[o ?]|]; cbn in E; [destruct o as [[? ?]|]; discriminate|discriminate]|discriminate|discriminate].
  injection E as ->. unfold parse in P. cbn [q_text new_parser q_m q_fail q_node q_act] in P. destruct (_ <? 0)%nat; [discriminate|].
  destruct (accepts _ _ _ _ _ _ _) as [[[dp perr] m1]|]; [|discriminate]. destruct (0 <=? dp)%Z; [discriminate|].
  destruct (fail_of _ _ _ _ _ _ _ _ _) as [[[o f] fs]|] eqn:F; [|discriminate]. destruct (simple_error input f) as [e0|q|] eqn:Es; try discriminate. injection P as -> _.
  rewrite (simple_tree _ _ _ Es). eapply (fail_readable toaq is_punct input toaq_labels m1 perr); [|exact F]. intros r pos f0 X. cbn [fst0 s_fail] in X; now rewrite m2_get_empty in X.
Qed.

Lemma leaf_readable : forall n s, readable n = true -> Forall (fun f => utf8 (f_want f)) (lf_fails s) -> Forall (fun f => utf8 (f_want f)) (lf_fails (leaf_walk n s)).
Proof.
  induction n as [i nm p w kids IH] using fnode_ind2. intros s R F. cbn [leaf_walk]. destruct (PositiveMap.find _ _); [exact F|].
  cbn [readable name_ok andb] in R. apply andb_prop in R as [W K]. apply utf8_lit in W. cbv zeta.
  set (s1 := Leafst _ _ (lf_fails s)). assert (F1 : Forall (fun f => utf8 (f_want f)) (lf_fails s1)) by exact F. clearbody s1. clear s F.
  destruct kids as [|k kids].
  - destruct (_ <? _)%Z; [repeat constructor; exact W|]. destruct (_ =? _)%Z; [|exact F1]. apply Forall_app. split; [exact F1|repeat constructor; exact W].
  - cbn [forallb] in K. apply andb_prop in K as [Kk Kl]. inversion IH as [|? ? Hk Hl]; subst. clear IH. specialize (Hk s1 Kk F1). revert Hk. generalize (leaf_walk k s1). clear F1 s1 Kk k.
    induction kids as [|k' l IHl]; intros s F; [exact F|]. cbn [forallb] in Kl. apply andb_prop in Kl as [Kk Kl]. inversion Hl as [|? ? Hk Hl']; subst.
    apply IHl; [exact Kl|exact Hl'|]. exact (Hk s Kk F).
Qed.
Lemma enumerate_utf8 l : Forall utf8 l -> utf8 (enumerate l).
Proof. induction 1 as [|x l X F IH]; [apply utf8_nil|]. cbn [enumerate]. destruct l; u8. Qed.
Lemma in_words_utf8 l : Forall utf8 l -> utf8 (in_words l).
Proof.
  intros F. destruct F as [|a l A F]; [apply utf8_nil|]. destruct F as [|b l B F]; [exact A|]. destruct F as [|c l C F].
  - cbn [in_words]. u8.
  - apply utf8_app; [exact A|]. apply enumerate_utf8. repeat (constructor; try assumption).
Qed.
Theorem message_utf8 is_punct input e : fst (tree is_punct (new_parser input)) = Ok (Err e) -> (forall o, utf8 (stake 10 (sdrop o input))) -> utf8 (error_string e).
Proof.
  intros E V. assert (R := error_readable _ _ _ E). assert (S : simple_error input (pe_tree e) = Ok e).
  { unfold tree in E. destruct (parse is_punct r_full_text 0 (new_parser input)) as [x p1] eqn:P.
    destruct x as [[e'|]|q|]; cbn [fst] in E; [|destruct (node_of _ _ _ _ _ _ _ _) as [[o ?]|]; cbn in E; [destruct o as [[? ?]|]; discriminate|discriminate]|discriminate|discriminate].
    injection E as ->. unfold parse in P. cbn [q_text new_parser q_m q_fail q_node q_act] in P. destruct (_ <? 0)%nat; [discriminate|].
    destruct (accepts _ _ _ _ _ _ _) as [[[dp perr] m1]|]; [|discriminate]. destruct (0 <=? dp)%Z; [discriminate|].
    destruct (fail_of _ _ _ _ _ _ _ _ _) as [[[o f] fs]|] eqn:F; [|discriminate]. destruct (simple_error input f) as [e0|q|] eqn:Es; try discriminate. injection P as -> _.
    rewrite (simple_tree _ _ _ Es). exact Es. }
  destruct (error_words _ _ _ S) as (l & _ & M). unfold error_string. rewrite M.
  assert (W : utf8 (in_words (map f_want (leaf_fails (pe_tree e))))).
  { apply in_words_utf8, Forall_map. apply leaf_readable; [exact R|constructor]. }
  assert (G : utf8 (found input (f_pos l))).
  { unfold found. cbv zeta. specialize (V (f_pos l)). destruct (sdrop (f_pos l) input) as [|c r]; [u8|]. apply utf8_app; [lit "'"|]. apply utf8_app; [exact V|lit "'"]. }
  repeat first [apply utf8_itoa | exact W | exact G | apply utf8_app | match goal with |- utf8 (String ?a ?t) => (lit (String a t)) end].
Qed.
