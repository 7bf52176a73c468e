(** Consequences of ParserFacts.v for callers of a Parser. *)

From Coq Require Import String Ascii NArith ZArith PArith List FMapPositive Lia Bool.
From Verif Require Import Base Utf8 Utf8Facts Loc LocSpec LocFacts PegSyntax Grammar Peg PegToaq PegSpec PegFacts
  NodeFacts FailFacts PegToaqFacts TreeSpec PegText Ast Action ActionSpec ActionFacts Parser ParserSpec ParserFacts.
Import ListNotations.
Open Scope nat_scope.

Section Uses.
Variable G : positive -> rule.
Variable is_punct : N -> bool.
Variable text : string.
Variable nullable : positive -> bool.
Variable rank : positive -> nat.
Variable maxrank : nat.
Hypothesis wf : forall r, wf_rule G nullable rank maxrank r = true.


Lemma uses_pos e pos r p : uses G is_punct text e pos r p -> pos <= String.length text -> pos <= p <= String.length text.
Proof.
  induction 1; intros Hp; try (apply IHuses; exact Hp); try lia.
  - destruct (sem_some _ _ _ _ _ _ wf _ _ _ _ _ H ltac:(lia)) as [B1 N1]. specialize (IHuses ltac:(lia)). lia.
  - destruct (sem_some _ _ _ _ _ _ wf _ _ _ _ _ H ltac:(lia)) as [B1 N1]. specialize (IHuses ltac:(lia)). lia.
Qed.

(** A rule tried at the very start of a match has a smaller rank. *)
Lemma uses_rank e pos r p : uses G is_punct text e pos r p -> forall k, pos <= String.length text ->
  left_ok nullable rank k e = true -> plus_ok nullable e = true -> p = pos -> rank r < k.
Proof.
  induction 1; intros k Hp Hl Hpl Hq; cbn [left_ok plus_ok] in *;
    try (apply (IHuses k Hp Hl Hpl Hq));
    try (apply andb_true_iff in Hpl; destruct Hpl as [Hpa Hpb]); try (apply andb_true_iff in Hl; destruct Hl as [Hla Hlb]).
  - apply Nat.ltb_lt. exact Hl.
  - apply (IHuses k Hp); assumption.
  - destruct (sem_some _ _ _ _ _ _ wf _ _ _ _ _ H ltac:(lia)) as [B1 N1].
    pose proof (uses_pos _ _ _ _ H0 ltac:(lia)) as B2.
    apply (IHuses k); [lia| |exact Hpb|lia].
    destruct (nul nullable a) eqn:En; [exact Hlb|]. specialize (N1 eq_refl). lia.
  - apply (IHuses k Hp); assumption.
  - apply (IHuses k Hp); assumption.
  - apply (IHuses k Hp); assumption.
  - destruct (sem_some _ _ _ _ _ _ wf _ _ _ _ _ H ltac:(lia)) as [B1 N1].
    pose proof (uses_pos _ _ _ _ H0 ltac:(lia)) as B2. apply negb_true_iff in Hpa. specialize (N1 Hpa). lia.
Qed.

Lemma rule_uses_rank r pos r' p : uses G is_punct text (r_body (G r)) pos r' p -> pos <= String.length text ->
  pos <= p <= String.length text /\ (p = pos -> rank r' < rank r).
Proof.
  intros H Hp. split; [eapply uses_pos; eassumption|]. intro Q.
  eapply uses_rank; [exact H|exact Hp|eapply wf_left; exact wf|eapply wf_plus; exact wf|exact Q].
Qed.
End Uses.

Lemma tries_rank is_punct text a b : tries is_punct text a b -> snd a <= String.length text ->
  snd a <= snd b <= String.length text /\ (snd b = snd a -> toaq_rank (fst b) < toaq_rank (fst a)).
Proof.
  induction 1 as [r p r' p' H|r p r' p' r'' p'' H H' IH]; intro Hp; cbn [fst snd] in *.
  - eapply rule_uses_rank; [exact toaq_wf|exact H|exact Hp].
  - destruct (rule_uses_rank _ _ _ _ _ _ toaq_wf _ _ _ _ H Hp) as [B1 R1]. destruct (IH ltac:(lia)) as [B2 R2].
    split; [lia|]. intro Q. assert (p' = p) by lia. subst p'. specialize (R1 eq_refl). specialize (R2 Q). lia.
Qed.

Lemma no_left_recursion is_punct text r p : p <= String.length text -> ~ tries is_punct text (r, p) (r, p).
Proof. intros Hp H. apply tries_rank in H; [|exact Hp]. cbn in H. lia. Qed.

Lemma rank_max r : toaq_rank r <= max_rank.
Proof. eapply wf_rank. exact toaq_wf. Qed.

Lemma chain_length is_punct text l a : chain is_punct text (a :: l) ->
  length (a :: l) <= enough text (snd a) (fst a).
Proof.
  revert a. induction l as [|b l IH]; intros [r p] H; cbn [fst snd].
  - unfold enough. rewrite Nat.add_1_r. cbn [length]. apply le_n_S, Nat.le_0_l.
  - inversion H as [|? ? ? H2 H3 H5]; subst. cbn [fst snd] in *. specialize (IH _ H5).
    destruct (rule_uses_rank _ _ _ _ _ _ toaq_wf _ _ _ _ H2 H3) as [B1 R1].
    destruct b as [r' p']. cbn [fst snd] in *. unfold enough in *. cbn [length] in *.
    pose proof (rank_max r'). remember max_rank as K eqn:EK. clear EK. destruct (Nat.eq_dec p' p) as [->|N]; [specialize (R1 eq_refl); lia|].
    remember (S K) as M eqn:EM. remember (String.length text - p) as x. remember (String.length text - p') as y.
    assert (x = S (y + (x - S y))) by lia. nia.
Qed.

Lemma depth_linear is_punct text l : chain is_punct text l -> length l <= S (String.length text) * S max_rank.
Proof.
  intro H. destruct l as [|a l]; [cbn; lia|]. pose proof (chain_length _ _ _ _ H) as C. etransitivity; [exact C|].
  unfold enough. pose proof (rank_max (fst a)). remember max_rank as K eqn:EK. clear EK. nia.
Qed.

Section Api.
Variable is_punct : N -> bool.
Variable text : string.
Notation sem := (@PegSpec.sem toaq is_punct text).
Notation vsem := (vsem toaq is_punct text).

Lemma sem_same' e pos a b c d : sem e pos a b -> sem e pos c d -> a = c.
Proof. intros H1 H2. destruct (sem_det _ _ _ _ _ _ _ _ _ H1 H2). assumption. Qed.

Ltac det :=
  repeat match goal with
  | H1 : PegSpec.sem ?e ?p ?a ?b, H2 : PegSpec.sem ?e ?p ?c ?d |- _ =>
      let Q := fresh in pose proof (sem_same' _ _ _ _ _ _ H1 H2) as Q; clear H2;
      try discriminate Q; try (injection Q as Q); subst
  | H1 : ActionSpec.vsem _ _ _ ?e ?p ?a, H2 : ActionSpec.vsem _ _ _ ?e ?p ?c |- _ =>
      let Q := fresh in pose proof (vsem_det _ _ _ _ _ _ _ H1 H2) as Q; clear H2;
      try discriminate Q; try (injection Q as Q); subst
  end.

Lemma ops_return p : reach is_punct text p ->
  fst (tree is_punct p) <> NoFuel /\ fst (text_of is_punct p) <> NoFuel /\
  forall offs, fst (word_at is_punct offs p) <> NoFuel.
Proof.
  intro H. apply reach_pinv in H. split; [|split; [|intro offs]].
  - destruct (tree_ok _ _ _ H) as [S _]. intro E. rewrite E in S. inversion S.
  - destruct (text_ok _ _ _ H) as [S _]. intro E. rewrite E in S. inversion S.
  - destruct (word_ok _ _ offs _ H) as [S _]. intro E. rewrite E in S. inversion S.
Qed.

Lemma tree_sem p : reach is_punct text p ->
  (forall n, fst (tree is_punct p) = Ok (Got (Some n)) <-> exists q err, sem (ECall r_full_text) 0 (Some (q, [n])) err) /\
  ((exists e, fst (tree is_punct p) = Ok (Err e)) <-> exists err, sem (ECall r_full_text) 0 None err).
Proof.
  intro H. apply reach_pinv in H. destruct (tree_ok _ _ _ H) as [S _]. destruct S as [q n err Hs|e err Hs He].
  - split.
    + intro m. split; [intro Q; injection Q as <-; eauto|]. intros (q' & err' & Hs'). det. reflexivity.
    + split; [intros (e & Q); discriminate|]. intros (err' & Hs'). det.
  - split.
    + intro m. split; [discriminate|]. intros (q' & err' & Hs'). det.
    + split; eauto.
Qed.

Lemma text_sem p : reach is_punct text p ->
  (forall n, fst (text_of is_punct p) = Ok (Got (Some n)) <-> exists q, vsem (ECall r_full_text) 0 (AOk q (VNode n, []))) /\
  ((exists e, fst (text_of is_punct p) = Ok (Err e)) <-> exists err, sem (ECall r_full_text) 0 None err).
Proof.
  intro H. apply reach_pinv in H. destruct (text_ok _ _ _ H) as [S _].
  assert (X : forall q v, vsem (ECall r_full_text) 0 (AOk q v) -> exists k err, sem (ECall r_full_text) 0 (Some (q, k)) err) by (intros; eapply vsem_call_shape; eassumption).
  destruct S as [q n k err Hs Hv|pv q k err Hs Hv|q k err v Hs Hv Hn|e err Hs He].
  - split.
    + intro m. split; [intro Q; injection Q as <-; eauto|]. intros (q' & Hv'). det. reflexivity.
    + split; [intros (e & Q); discriminate|]. intros (err' & Hs'). det.
  - split.
    + intro m. split; [discriminate|]. intros (q' & Hv'). det.
    + split; [intros (e & Q); discriminate|]. intros (err' & Hs'). det.
  - split.
    + intro m. split; [discriminate|]. intros (q' & Hv'). det. contradiction (Hn m); reflexivity.
    + split; [intros (e & Q); discriminate|]. intros (err' & Hs'). det.
  - split.
    + intro m. split; [discriminate|]. intros (q' & Hv'). destruct (X _ _ Hv') as (k & err' & Hs'). det.
    + split; eauto.
Qed.

Lemma word_sem p offs : reach is_punct text p -> offs <= String.length text ->
  (forall w d, fst (word_at is_punct offs p) = Ok (Got (w, d)) <->
     exists q, vsem (ECall r_word) offs (AOk q (VWord w, [])) /\ d = (Z.of_nat q - Z.of_nat offs)%Z) /\
  ((exists e, fst (word_at is_punct offs p) = Ok (Err e)) <-> exists err, sem (ECall r_word) offs None err).
Proof.
  intros H Ho. apply reach_pinv in H. destruct (word_ok _ _ offs _ H) as [S _].
  assert (X : forall q v, vsem (ECall r_word) offs (AOk q v) -> exists k err, sem (ECall r_word) offs (Some (q, k)) err) by (intros; eapply vsem_call_shape; eassumption).
  destruct S as [Hb|q w k err _ Hs Hv|pv q k err _ Hs Hv|q k err v _ Hs Hv Hn|e err _ Hs He].
  - lia.
  - split.
    + intros w' d. split; [intro Q; injection Q as <- <-; eauto|]. intros (q' & Hv' & ->). det. reflexivity.
    + split; [intros (e & Q); discriminate|]. intros (err' & Hs'). det.
  - split.
    + intros w' d. split; [discriminate|]. intros (q' & Hv' & _). det.
    + split; [intros (e & Q); discriminate|]. intros (err' & Hs'). det.
  - split.
    + intros w' d. split; [discriminate|]. intros (q' & Hv' & _). det. contradiction (Hn w'); reflexivity.
    + split; [intros (e & Q); discriminate|]. intros (err' & Hs'). det.
  - split.
    + intros w' d. split; [discriminate|]. intros (q' & Hv' & _). destruct (X _ _ Hv') as (k & err' & Hs'). det.
    + split; eauto.
Qed.

Lemma history p1 p2 : reach is_punct text p1 -> reach is_punct text p2 ->
  same_outcome (fst (tree is_punct p1)) (fst (tree is_punct p2)) /\
  same_outcome (fst (text_of is_punct p1)) (fst (text_of is_punct p2)) /\
  forall offs, same_outcome (fst (word_at is_punct offs p1)) (fst (word_at is_punct offs p2)).
Proof.
  intros H1 H2. apply reach_pinv in H1. apply reach_pinv in H2. split; [|split; [|intro offs]].
  - destruct (tree_ok _ _ _ H1) as [S1 _]. destruct (tree_ok _ _ _ H2) as [S2 _].
    destruct S1, S2; cbn; det; auto.
  - destruct (text_ok _ _ _ H1) as [S1 _]. destruct (text_ok _ _ _ H2) as [S2 _].
    destruct S1, S2; cbn; det; try reflexivity; auto;
      match goal with H : forall n, VNode ?m <> VNode n |- _ => contradiction (H m); reflexivity end.
  - destruct (word_ok _ _ offs _ H1) as [S1 _]. destruct (word_ok _ _ offs _ H2) as [S2 _].
    destruct S1, S2; cbn; try lia; det; try reflexivity; auto;
      match goal with H : forall n, VWord ?m <> VWord n |- _ => contradiction (H m); reflexivity end.
Qed.

(** ** Consumption *)

Lemma find_full : toaq r_full_text = Rule "full_text" None (EAction AId [0] (ESeq (ELabel 0 (ECall r_text)) (ECall r_EOF))).
Proof. vm_compute. reflexivity. Qed.
Lemma find_eof : toaq r_EOF = Rule "EOF" (Some "EOF"%string) (ENot EAny).
Proof. vm_compute. reflexivity. Qed.

Lemma full_stops q k err : sem (ECall r_full_text) 0 (Some (q, k)) err ->
  fst (decode_rune (sdrop q text)) = rune_error.
Proof.
  intro H. inversion H; subst. rewrite find_full in *. cbn [r_body] in *.
  repeat match goal with
  | H : PegSpec.sem (EAction _ _ _) _ _ _ |- _ => inversion H; clear H; subst
  | H : PegSpec.sem (ESeq _ _) _ (Some _) _ |- _ => inversion H; clear H; subst
  | H : PegSpec.sem (ECall r_EOF) _ (Some _) _ |- _ => inversion H; clear H; subst; rewrite find_eof in *; cbn [r_body] in *
  | H : PegSpec.sem (ENot _) _ (Some _) _ |- _ => inversion H; clear H; subst
  | H : PegSpec.sem EAny _ None _ |- _ => inversion H; clear H; subst
  end.
  match goal with H : decode_rune _ = _ |- _ => rewrite H end. reflexivity.
Qed.

Lemma full_consumes rs q k err : text = of_runes rs -> Forall (fun r => valid_rune r = true /\ r <> rune_error) rs ->
  sem (ECall r_full_text) 0 (Some (q, k)) err -> q = String.length text.
Proof.
  intros Et Hr H. assert (Hv : Forall (fun r => valid_rune r = true) rs) by (eapply Forall_impl; [|exact Hr]; cbn; tauto).
  assert (Hb : between rs 0) by (exists [], rs; split; reflexivity).
  pose proof (proj1 (sem_between_all toaq is_punct text toaq_lits rs Hv Et) _ _ _ _ H eq_refl Hb) as (a & b & E & Eq).
  pose proof (full_stops _ _ _ H) as D. subst q. destruct b as [|c b]; [rewrite Et, E, app_nil_r; reflexivity|].
  rewrite (between_drop text rs Et a _ E) in D. cbn [of_runes] in D.
  rewrite E in Hr. apply Forall_app in Hr. destruct Hr as [_ Hr]. inversion Hr as [|? ? [V N] _]; subst.
  rewrite decode_encode_app in D by exact V. contradiction.
Qed.

(** How many bytes Tree matched. *)
Lemma tree_consumed p n : reach is_punct text p -> fst (tree is_punct p) = Ok (Got (Some n)) ->
  exists q, q <= String.length text /\ p_text n = stake q text /\
    (sdrop q text = ""%string \/ fst (decode_rune (sdrop q text)) = rune_error) /\
    forall rs, text = of_runes rs -> Forall (fun r => valid_rune r = true /\ r <> rune_error) rs -> p_text n = text.
Proof.
  intros H Ht. apply (tree_sem p H) in Ht. destruct Ht as (q & err & Hs). exists q.
  destruct (sem_some _ _ _ _ _ _ toaq_wf _ _ _ _ _ Hs ltac:(lia)) as [B _]. split; [lia|].
  assert (Hn : p_text n = stake q text) by (inversion Hs; subst; cbn; rewrite Nat.sub_0_r; reflexivity).
  split; [exact Hn|]. split; [right; eapply full_stops; exact Hs|].
  intros rs Et Hr. rewrite Hn. rewrite (full_consumes _ _ _ _ Et Hr Hs).
  rewrite <- (stake_sdrop (String.length text) text) at 3. rewrite sdrop_ge by lia. rewrite sapp_nil_r. reflexivity.
Qed.

Lemma tree_lossless p n : reach is_punct text p -> fst (tree is_punct p) = Ok (Got (Some n)) ->
  (exists rest, text = (concat_texts (leaves n) ++ rest)%string) /\
  p_text n = concat_texts (leaves n) /\
  forall m, inside m n -> p_kids m <> [] -> p_text m = concat_texts (p_kids m).
Proof.
  intros H Ht. apply (tree_sem p H) in Ht. destruct Ht as (q & err & Hs).
  pose proof (proj1 (sem_spells_all _ _ _ _ _ _ toaq_wf) _ _ _ _ Hs ltac:(lia)) as [S1 S2].
  assert (Hm : forall m, inside m n -> spelled m) by (intros; eapply S2; [left; reflexivity|eassumption]).
  pose proof (leaves_spell n Hm) as Hl. rewrite Hl. split; [|split; [reflexivity|]].
  - exists (sdrop q text). assert (Hn : p_text n = stake q text) by (inversion Hs; subst; cbn; rewrite Nat.sub_0_r; reflexivity).
    rewrite Hn, stake_sdrop. reflexivity.
  - intros m Hi Hk. apply Hm; [exact Hi|left; exact Hk].
Qed.

(** ** Text and Tree *)

Lemma text_tree p1 p2 : reach is_punct text p1 -> reach is_punct text p2 ->
  ((exists e, fst (text_of is_punct p1) = Ok (Err e)) <-> (exists e, fst (tree is_punct p2) = Ok (Err e))) /\
  fst (text_of is_punct p1) <> Ok (Got None) /\ fst (tree is_punct p2) <> Ok (Got None) /\
  (forall n t, fst (text_of is_punct p1) = Ok (Got (Some n)) -> fst (tree is_punct p2) = Ok (Got (Some t)) ->
     exists q, vsem (ECall r_full_text) 0 (AOk q (VNode n, [])) /\ p_text t = stake q text).
Proof.
  intros H1 H2. pose proof (text_sem p1 H1) as [T1 T2]. pose proof (tree_sem p2 H2) as [R1 R2].
  split; [rewrite T2, R2; reflexivity|]. apply reach_pinv in H1. apply reach_pinv in H2.
  split; [destruct (text_ok _ _ _ H1) as [S _]; intro E; rewrite E in S; inversion S|].
  split; [destruct (tree_ok _ _ _ H2) as [S _]; intro E; rewrite E in S; inversion S|].
  intros n t Hn Ht. apply T1 in Hn. apply R1 in Ht. destruct Hn as (q & Hv). destruct Ht as (q' & err & Hs).
  exists q. split; [exact Hv|]. destruct (vsem_call_shape _ _ _ _ _ _ _ Hv) as (k & err' & Hs'). det.
  match goal with H : PegSpec.sem (ECall r_full_text) 0 (Some _) _ |- _ => inversion H; subst; cbn; rewrite Nat.sub_0_r; reflexivity end.
Qed.

(** ** Errors *)

Lemma error_located p e : reach is_punct text p ->
  fst (tree is_punct p) = Ok (Err e) \/ fst (text_of is_punct p) = Ok (Err e) \/
  (exists offs, fst (word_at is_punct offs p) = Ok (Err e)) ->
  (0 <= pe_offset e <= Z.of_nat (String.length text))%Z /\
  location text (Z.to_nat (pe_offset e)) = Some (pe_loc e).
Proof.
  intros H He. apply reach_pinv in H.
  assert (Hg : good_error text e).
  { destruct He as [E|[E|(offs & E)]].
    - destruct (tree_ok _ _ _ H) as [S _]. rewrite E in S. inversion S; subst; assumption.
    - destruct (text_ok _ _ _ H) as [S _]. rewrite E in S. inversion S; subst; assumption.
    - destruct (word_ok _ _ offs _ H) as [S _]. rewrite E in S. inversion S; subst; assumption. }
  destruct Hg as (A & B & _). split; [exact A|exact B].
Qed.

Lemma tree_no_panic p q : reach is_punct text p -> fst (tree is_punct p) <> Panic q.
Proof. intros H E. apply reach_pinv in H. destruct (tree_ok _ _ _ H) as [S _]. rewrite E in S. inversion S. Qed.

Lemma word_beyond p offs : reach is_punct text p -> String.length text < offs -> fst (word_at is_punct offs p) = Panic PRuntime.
Proof. intros H Ho. apply reach_pinv in H. unfold word_at. rewrite (parse_beyond _ _ _ _ _ H Ho). reflexivity. Qed.

End Api.
