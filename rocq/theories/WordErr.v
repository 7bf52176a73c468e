(** Errors of Parser.Word. *)

From Coq Require Import String NArith ZArith List Bool Arith Lia FMapPositive.
From Verif Require Import Base Utf8 Loc PegSyntax Grammar Peg PegToaq PegSpec PegFacts NodeFacts PegToaqFacts Parser ParserSpec FailFacts ParserFacts
  ActionSpec ActionFacts ApiFacts Dedup DedupSpec DedupFacts ErrFacts DedupApi MsgFacts WordSpec.
Import ListNotations.
Open Scope list_scope.
Open Scope Z_scope.
Notation "x +++ y" := (String.append x y) (at level 60, right associativity).

(** ** Failures are not before the start *)

Section Far.
Variable G : positive -> rule.
Variable is_punct : N -> bool.
Variable text : string.
Variable nullable : positive -> bool.
Variable rank : positive -> nat.
Variable maxrank : nat.
Hypothesis wf : forall r, wf_rule G nullable rank maxrank r = true.
Notation L := (String.length text).
Notation sem := (@PegSpec.sem G is_punct text).
Notation star := (@PegSpec.star G is_punct text).

Lemma far_all :
  (forall e pos res err, sem e pos res err -> (pos <= L)%nat -> res = None -> Z.of_nat pos <= err) /\
  (forall e pos p k err, star e pos p k err -> True).
Proof.
  apply sem_star_ind; intros; try exact I; try discriminate; try lia; subst; auto.
  destruct (sem_some _ _ _ _ _ _ wf _ _ _ _ _ s H1) as [B _]. specialize (H0 ltac:(lia) eq_refl). lia.
Qed.
Lemma sem_far e pos err : sem e pos None err -> (pos <= L)%nat -> Z.of_nat pos <= err.
Proof. intros S P. exact (proj1 far_all _ _ _ _ S P eq_refl). Qed.

(** ** Rules that no other rule uses *)

Fixpoint calls (r0 : positive) (e : expr) : bool :=
  match e with
  | ELit _ | EClass _ | EAny | EPunct => false
  | ECall r => Pos.eqb r r0
  | ESeq a b | EChoice a b => calls r0 a || calls r0 b
  | EPlus a | EOpt a | EAnd a | ENot a | ESub a | ELabel _ a | EAction _ _ a => calls r0 a
  end.

Variable r0 : positive.
Variable p0 : nat.
Hypothesis unused : forall r, calls r0 (r_body (G r)) = false.

Definition lacks (st : mst) : Prop := ~ has st r0 p0.
Definition call_lacks (call : positive -> nat -> mst -> option (Z * Z * mst)) : Prop :=
  forall r pos st dp de st', call r pos st = Some (dp, de, st') -> r <> r0 -> lacks st -> lacks st'.

Notation loop call e1 :=
  (fix loop (n : nat) (pos : nat) (perr : Z) (st : mst) {struct n} : ares :=
     match n with
     | O => None
     | S n' =>
         match acc is_punct text call e1 pos perr st with
         | Some (Some pos1, perr1, st1) => loop n' pos1 perr1 st1
         | Some (None, perr1, st1) => Some (Some pos, perr1, st1)
         | None => None
         end
     end).

Lemma acc_lacks call : call_lacks call -> forall e pos perr st o perr' st',
  acc is_punct text call e pos perr st = Some (o, perr', st') -> calls r0 e = false -> lacks st -> lacks st'.
Proof.
  intros Hc. induction e; intros pos perr st o perr' st' H Hn Hl; cbn [acc] in H; cbn [calls] in Hn.
  1-4: assert (st' = st) by
    (unfold acc_fail in H; repeat match type of H with
     | context[if ?b then _ else _] => destruct b
     | context[let (_, _) := ?b in _] => destruct b
     end; injection H; congruence); subst st'; exact Hl.
  - destruct (call r pos st) as [[[dp de] st1]|] eqn:E; [|discriminate].
    assert (st' = st1) by (destruct (dp <? 0); injection H; congruence). subst st'.
    eapply Hc; [exact E| |exact Hl]. apply Pos.eqb_neq. exact Hn.
  - apply orb_false_iff in Hn. destruct Hn as [N1 N2].
    destruct (acc is_punct text call e1 pos perr st) as [[[[q|] pe1] st1]|] eqn:E1; [| |discriminate].
    + eapply IHe2; [exact H|exact N2|]. eapply IHe1; eassumption.
    + injection H as _ _ <-. eapply IHe1; eassumption.
  - apply orb_false_iff in Hn. destruct Hn as [N1 N2].
    destruct (acc is_punct text call e1 pos perr st) as [[[[q|] pe1] st1]|] eqn:E1; [| |discriminate].
    + injection H as _ _ <-. eapply IHe1; eassumption.
    + eapply IHe2; [exact H|exact N2|]. eapply IHe1; eassumption.
  - destruct (acc is_punct text call e pos perr st) as [[[[q|] pe1] st1]|] eqn:E1; [| |discriminate].
    + assert (HL : forall n q pe1 st1, loop call e n q pe1 st1 = Some (o, perr', st') -> lacks st1 -> lacks st').
      { clear - IHe Hn. induction n as [|n IHn]; intros q pe1 st1 H L1; [discriminate|].
        destruct (acc is_punct text call e q pe1 st1) as [[[[q2|] pe2] st2]|] eqn:E2; [| |discriminate].
        - eapply IHn; [exact H|]. eapply IHe; [exact E2|exact Hn|exact L1].
        - injection H as _ _ <-. eapply IHe; [exact E2|exact Hn|exact L1]. }
      exact (HL (S L) _ _ _ H (IHe _ _ _ _ _ _ E1 Hn Hl)).
    + injection H as _ _ <-. eapply IHe; eassumption.
  - destruct (acc is_punct text call e pos perr st) as [[[o1 pe1] st1]|] eqn:E1; [|discriminate].
    assert (st' = st1) by (destruct o1; injection H; congruence). subst st'. eapply IHe; eassumption.
  - destruct (acc is_punct text call e pos perr st) as [[[o1 pe1] st1]|] eqn:E1; [|discriminate].
    assert (st' = st1) by (unfold acc_fail in H; destruct o1; injection H; congruence). subst st'. eapply IHe; eassumption.
  - destruct (acc is_punct text call e pos perr st) as [[[o1 pe1] st1]|] eqn:E1; [|discriminate].
    assert (st' = st1) by (unfold acc_fail in H; destruct o1; injection H; congruence). subst st'. eapply IHe; eassumption.
  - eapply IHe; eassumption.
  - eapply IHe; eassumption.
  - eapply IHe; eassumption.
Qed.

Lemma accepts_lacks fuel : call_lacks (accepts G is_punct text fuel).
Proof.
  induction fuel as [|fuel IH]; intros r pos st dp de st' H Hr Hl; cbn [accepts] in H; [discriminate|].
  destruct (memo st r pos) as [[dp0 de0]|]; [injection H as _ _ <-; exact Hl|].
  destruct (acc is_punct text (accepts G is_punct text fuel) (r_body (G r)) pos (-1) st) as [[[o perr] st1]|] eqn:E; [|discriminate].
  assert (L1 := acc_lacks _ IH _ _ _ _ _ _ _ E (unused r) Hl).
  assert (Hst' : exists d err, st' = Mst (m2_set (s_delta st1) r pos d) err).
  { unfold memoize in H. destruct o as [p|]; [destruct (0 <=? Z.of_nat p)|]; cbn in H; injection H as <- <- <-; eauto. }
  destruct Hst' as (d & err & ->). intros H1. apply has_set in H1. destruct H1 as [H1|H1]; [congruence|exact (L1 H1)].
Qed.
End Far.

(** FullText is the start symbol: no rule uses it. *)
Lemma full_text_unused_true : forallb (fun p => negb (calls r_full_text (r_body (snd p)))) (PositiveMap.elements rule_map) = true.
Proof. vm_compute. reflexivity. Qed.
Lemma full_text_unused r : calls r_full_text (r_body (toaq r)) = false.
Proof.
  unfold toaq. destruct (PositiveMap.find r rule_map) as [x|] eqn:E; [|reflexivity].
  pose proof full_text_unused_true as H. rewrite forallb_forall in H.
  specialize (H (r, x) (PositiveMap.elements_correct _ _ E)). apply negb_true_iff in H. exact H.
Qed.

Section Api.
Variable is_punct : N -> bool.
Variable text : string.
Notation sem := (@PegSpec.sem toaq is_punct text).
Notation L := (String.length text).
Notation pinv := (ParserFacts.pinv is_punct text).
Notation cons := (PegFacts.cons toaq is_punct text).
Notation tree := (tree is_punct).
Notation text_of := (text_of is_punct).
Notation word_at := (word_at is_punct).
Notation parse := (parse is_punct).
Notation linv := (ErrFacts.linv is_punct text).
Notation failed := (ErrFacts.failed is_punct text).
Notation rejected := (ErrFacts.rejected is_punct text).

Notation words_only := (WordSpec.words_only is_punct text).
Notation blank := (WordSpec.blank text).

Lemma parse_lacks r start p : r <> r_full_text -> lacks r_full_text 0 (q_m p) -> lacks r_full_text 0 (q_m (snd (parse r start p))).
Proof.
  intros Hr Hl. unfold Parser.parse. destruct (String.length (q_text p) <? start)%nat; [exact Hl|].
  destruct (accepts toaq is_punct (q_text p) (enough (q_text p) start r) r start (q_m p)) as [[[dp de] m1]|] eqn:E; [|exact Hl].
  assert (L1 := accepts_lacks _ _ _ _ _ full_text_unused _ _ _ _ _ _ _ E Hr Hl).
  destruct (0 <=? dp); [exact L1|]. destruct (fail_of _ _ _ _ _ _ _ _ _) as [[[o f] fs]|]; [|exact L1]. destruct (simple_error (q_text p) f); exact L1.
Qed.

Lemma words_lack p : words_only p -> lacks r_full_text 0 (q_m p).
Proof.
  induction 1.
  - intros H. apply H. apply m2_get_empty.
  - rewrite (proj1 (word_tables is_punct offs p)). apply parse_lacks; [discriminate|exact IHwords_only].
Qed.
Lemma words_reach p : words_only p -> Parser.reach is_punct text p.
Proof. induction 1; [constructor|apply RWord; assumption]. Qed.

Lemma blank_leaves n : leaf_fails (FNode n "" 0 "" []) = [FNode n "" 0 "" []].
Proof. unfold leaf_fails. cbn [leaf_walk lf_seen]. rewrite PositiveMap.gempty. reflexivity. Qed.
Lemma blank_error n e : simple_error text (FNode n "" 0 "" []) = Ok e -> blank e.
Proof.
  intros E. destruct (error_words _ _ _ E) as (l & Hl & Em). rewrite blank_leaves in Hl, Em. injection Hl as <-. split.
  - unfold pe_offset. rewrite (simple_tree _ _ _ E). reflexivity.
  - rewrite Em. reflexivity.
Qed.

Lemma word_blank p offs e : words_only p -> fst (word_at offs p) = Ok (Err e) -> blank e.
Proof.
  intros W E. assert (I := reach_pinv _ _ _ (words_reach p W)). apply word_err in E.
  destruct (le_lt_dec offs L) as [Hs|Hs]; [|rewrite (parse_beyond _ _ _ _ _ I Hs) in E; discriminate].
  assert (Lk := parse_lacks r_word offs p ltac:(discriminate) (words_lack p W)).
  destruct (parse_case _ _ r_word offs p I Hs) as (res & err & m1 & Se & Hm & Cm & _ & X & C). destruct res as [x|].
  { rewrite C in E. discriminate E. }
  destruct C as (o & f & fs & e' & h & Ef & Es & _ & _ & C). rewrite C in E, Lk. cbn [fst snd q_m] in *. injection E as ->.
  assert (Far := sem_far _ _ _ _ _ _ toaq_wf _ _ _ Se Hs).
  destruct (enough_S text r_full_text) as [n En]. rewrite En in Ef. cbn [fail_of] in Ef.
  assert (Ek : exists k, f = FNode k "" 0 "" []).
  { unfold failMemo in Ef. destruct (s_lastFail m1 <? Z.of_nat 0); [injection Ef as _ <- _; eauto|].
    unfold delta in Ef. unfold lacks, has in Lk. destruct (m2_get (s_delta m1) r_full_text 0) as [d|]; [exfalso; apply Lk; discriminate|].
    rewrite (proj2 (Z.ltb_lt _ _)) in Ef by lia. cbn in Ef. injection Ef as _ <- _. eauto. }
  destruct Ek as [k ->]. eapply blank_error. exact Es.
Qed.

Lemma word_after p e0 q offs e : Parser.reach is_punct text p ->
  fst (tree p) = Ok (Err e0) \/ fst (text_of p) = Ok (Err e0) -> later is_punct (snd (tree p)) q \/ later is_punct (snd (text_of p)) q ->
  fst (word_at offs q) = Ok (Err e) -> e = e0 \/ blank e.
Proof.
  intros H E0 Lq E. assert (R := reach_rejected _ _ p e0 H E0). destruct (first_error _ _ p e0 (reach_linv _ _ p R H) E0) as (_ & F1 & F2).
  assert (F : failed e0 q) by (destruct Lq as [Lq|Lq]; [exact (later_failed _ _ e0 _ q R F1 Lq)|exact (later_failed _ _ e0 _ q R F2 Lq)]).
  clear - E R F. apply word_err in E. destruct F as ([I Lf] & Hh & Rt & Es0). unfold root in Rt.
  destruct (le_lt_dec offs L) as [Hs|Hs]; [|rewrite (parse_beyond _ _ _ _ _ I Hs) in E; discriminate].
  destruct (parse_case _ _ r_word offs q I Hs) as (res & err & m1 & Se & Hm & Cm & _ & X & C). destruct res as [x|].
  { rewrite C in E. discriminate E. }
  destruct C as (o & f & fs & e' & h & Ef & Es & _ & _ & C). rewrite C in E. cbn [fst] in E. injection E as ->.
  destruct R as [err0 R]. destruct (enough_S text r_full_text) as [n En]. rewrite En in Ef. cbn [fail_of] in Ef.
  unfold failMemo in Ef. rewrite (has_delta _ _ m1 err0 Cm R (X _ _ Hh)), Rt in Ef.
  destruct (s_lastFail m1 <? Z.of_nat 0).
  { right. injection Ef as _ <- _. eapply blank_error. exact Es. }
  destruct (Z.of_nat 0 + (err0 + 1 - 1) <? err - Z.of_nat offs).
  { right. cbn in Ef. injection Ef as _ <- _. eapply blank_error. exact Es. }
  left. cbn in Ef. injection Ef as _ <- _. rewrite Es0 in Es. injection Es as ->. reflexivity.
Qed.
End Api.

(** ** Cases *)

Lemma word_blank_case :
  let p := snd (word_at ascii_punct 0 (new_parser "jai xx")) in
  words_only ascii_punct "jai xx" p /\ exists e, fst (word_at ascii_punct 4 p) = Ok (Err e) /\ pe_msg e = "want ; got 'jai xx'"%string.
Proof. cbv zeta. split; [apply WWord, WNew|]. eexists. split; vm_compute; reflexivity. Qed.

Lemma word_after_case : exists e, let p := new_parser "jai xx" in
  fst (tree ascii_punct p) = Ok (Err e) /\ pe_offset e <> 0 /\ fst (word_at ascii_punct 4 (snd (tree ascii_punct p))) = Ok (Err e).
Proof. eexists. split; [vm_compute; reflexivity|]. split; [vm_compute; discriminate|vm_compute; reflexivity]. Qed.
