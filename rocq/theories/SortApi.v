(** What the types say about the Parser operations. *)

From Coq Require Import String Ascii NArith ZArith PArith List Bool Lia FMapPositive.
From Verif Require Import Base Utf8 Utf8Facts PegSyntax Grammar Peg PegToaq PegSpec PegFacts PegToaqFacts Tone Ast Action
  ActionSpec AstInd ModFacts AstSorts ActionTypes SortFacts ActionFacts ActionTypeFacts Parser ParserFacts TreeSpec ParserSpec ApiFacts.
Import ListNotations.
Open Scope string_scope.
Open Scope list_scope.
Open Scope nat_scope.

Lemma fits_any : fits false types_any = true.
Proof. vm_compute. reflexivity. Qed.
Lemma fits_nd : fits true types_nd = true.
Proof. vm_compute. reflexivity. Qed.
Lemma full_text_any : rt_of types_any r_full_text = TNode [SText].
Proof. vm_compute. reflexivity. Qed.
Lemma full_text_nd : rt_of types_nd r_full_text = TNode [SText].
Proof. vm_compute. reflexivity. Qed.
Lemma word_any : rt_of types_any r_word = TWord.
Proof. vm_compute. reflexivity. Qed.
Lemma word_nd : rt_of types_nd r_word = TWord.
Proof. vm_compute. reflexivity. Qed.

Lemma sdrop_in c n s : In c (list_ascii_of_string (sdrop n s)) -> In c (list_ascii_of_string s).
Proof.
  revert n. induction s as [|a s IH]; intros [|n] H; cbn in *; auto.
  right. exact (IH n H).
Qed.

Lemma no_digits_decode text : no_digits text -> forall pos, digit17 (fst (decode_rune (sdrop pos text))) = false.
Proof.
  intros H pos. destruct (digit17 (fst (decode_rune (sdrop pos text)))) eqn:E; [exfalso|reflexivity].
  unfold digit17 in E. apply andb_true_iff in E. destruct E as [E1 E2]. apply N.leb_le in E1, E2.
  set (r := fst (decode_rune (sdrop pos text))) in *.
  assert (R : r <> rune_error) by (unfold rune_error; lia).
  assert (NE : sdrop pos text <> "") by (intro Z; apply R; unfold r; rewrite Z; reflexivity).
  assert (I := decode_inv (sdrop pos text) NE R). fold r in I.
  assert (V : valid_rune r = true) by (apply valid_rune_spec; lia).
  assert (L : (r <? 128)%N = true) by (apply N.ltb_lt; lia).
  unfold encode_rune in I. rewrite V, L in I.
  assert (X : In (byte r) (list_ascii_of_string text)).
  { apply (sdrop_in _ pos). rewrite I. left. reflexivity. }
  apply (H _ X). replace (N_of_ascii (byte r)) with r by (symmetry; apply byte_of_byte; lia). lia.
Qed.

Section Api.

Variable is_punct : N -> bool.
Variable text : string.
Notation vsem := (vsem toaq is_punct text).

Lemma text_typed o : vsem (ECall r_full_text) 0 o ->
  match o with
  | AFail => True
  | APanic q => q = PRuntime /\ ~ no_digits text
  | AOk _ (v, _) => exists n, v = VNode n /\ okn [SText] n = true
  end.
Proof.
  intro V.
  assert (A := proj1 (typed is_punct text false types_any fits_any ltac:(discriminate)) _ _ _ V _ _ eq_refl).
  destruct o as [|q|p [v en]]; cbn [good_out] in A; [exact I| |].
  - split; [tauto|]. intro D.
    assert (B := proj1 (typed is_punct text true types_nd fits_nd (fun _ => no_digits_decode text D)) _ _ _ V _ _ eq_refl).
    cbn in B. destruct B; discriminate.
  - destruct A as [A _]. rewrite full_text_any in A. exact A.
Qed.

Lemma word_typed offs o : vsem (ECall r_word) offs o ->
  match o with
  | AFail => True
  | APanic q => q = PRuntime /\ ~ no_digits text
  | AOk _ (v, _) => exists w, v = VWord w /\ sword w = true
  end.
Proof.
  intro V.
  assert (A := proj1 (typed is_punct text false types_any fits_any ltac:(discriminate)) _ _ _ V _ _ eq_refl).
  destruct o as [|q|p [v en]]; cbn [good_out] in A; [exact I| |].
  - split; [tauto|]. intro D.
    assert (B := proj1 (typed is_punct text true types_nd fits_nd (fun _ => no_digits_decode text D)) _ _ _ V _ _ eq_refl).
    cbn in B. destruct B; discriminate.
  - destruct A as [A _]. rewrite word_any in A. exact A.
Qed.

Lemma text_panic p q : reach is_punct text p -> fst (text_of is_punct p) = Panic q -> q = PRuntime /\ ~ no_digits text.
Proof.
  intros H E. apply reach_pinv in H. destruct (text_ok _ _ _ H) as [S _]. rewrite E in S.
  inversion S; subst.
  - match goal with V : ActionSpec.vsem _ _ _ _ _ _ |- _ => exact (text_typed _ V) end.
  - match goal with V : ActionSpec.vsem _ _ _ _ _ _ |- _ => destruct (text_typed _ V) as (n & -> & _) end.
    match goal with N : forall n, _ <> _ |- _ => contradiction (N n); reflexivity end.
Qed.

Lemma word_panic p offs q : reach is_punct text p -> offs <= String.length text ->
  fst (word_at is_punct offs p) = Panic q -> q = PRuntime /\ ~ no_digits text.
Proof.
  intros H Ho E. apply reach_pinv in H. destruct (word_ok _ _ offs _ H) as [S _]. rewrite E in S.
  inversion S; subst; try lia.
  - match goal with V : ActionSpec.vsem _ _ _ _ _ _ |- _ => exact (word_typed _ _ V) end.
  - match goal with V : ActionSpec.vsem _ _ _ _ _ _ |- _ => destruct (word_typed _ _ V) as (n & -> & _) end.
    match goal with N : forall w, VWord _ <> VWord w |- _ => contradiction (N n); reflexivity end.
Qed.

Lemma panics_only_digits p : reach is_punct text p ->
  (forall q, fst (text_of is_punct p) = Panic q -> q = PRuntime /\ ~ no_digits text) /\
  (forall offs q, offs <= String.length text -> fst (word_at is_punct offs p) = Panic q -> q = PRuntime /\ ~ no_digits text).
Proof. intro H. split; [intro; apply text_panic; exact H|intros; eapply word_panic; eassumption]. Qed.

Lemma text_sorted p n : reach is_punct text p -> fst (text_of is_punct p) = Ok (Got (Some n)) ->
  shape_of n = SText /\ nearly_sorted n = true.
Proof.
  intros H E. destruct (proj1 (text_sem _ _ p H) n) as [F _]. destruct (F E) as (q & V).
  destruct (text_typed _ V) as (n' & X & O). injection X as <-.
  split; [exact (okn_one _ _ O)|]. apply okn_spec in O. exact (proj2 O).
Qed.

Lemma word_sorted p offs w d : reach is_punct text p -> fst (word_at is_punct offs p) = Ok (Got (w, d)) ->
  sorted_word real_left real_right w = true.
Proof.
  intros H E. destruct (Nat.lt_ge_cases (String.length text) offs) as [B|B].
  { rewrite (word_beyond _ _ p offs H B) in E. discriminate. }
  destruct (proj1 (word_sem _ _ p offs H B) w d) as [F _]. destruct (F E) as (q & V & _).
  destruct (word_typed _ _ V) as (n' & X & O). injection X as <-. exact O.
Qed.

Lemma text_tree_strong p1 p2 : reach is_punct text p1 -> reach is_punct text p2 ->
  ((exists e, fst (text_of is_punct p1) = Ok (Err e)) <-> (exists e, fst (tree is_punct p2) = Ok (Err e))) /\
  fst (text_of is_punct p1) <> Ok (Got None) /\ fst (tree is_punct p2) <> Ok (Got None) /\
  (forall n t, fst (text_of is_punct p1) = Ok (Got (Some n)) -> fst (tree is_punct p2) = Ok (Got (Some t)) ->
     exists q, vsem (ECall r_full_text) 0 (AOk q (VNode n, [])) /\ p_text t = stake q text) /\
  (no_digits text ->
     (exists n, fst (text_of is_punct p1) = Ok (Got (Some n))) <-> (exists t, fst (tree is_punct p2) = Ok (Got (Some t)))).
Proof.
  intros H1 H2. destruct (text_tree _ _ p1 p2 H1 H2) as (A & B & C & D). repeat split; try tauto; try assumption.
  - intros (n & E). destruct (fst (tree is_punct p2)) as [[[t|]|e]|q|] eqn:T.
    + eauto.
    + congruence.
    + destruct (proj2 A ltac:(eauto)) as (e' & X). congruence.
    + contradiction (tree_no_panic _ _ p2 q H2 T).
    + contradiction (proj1 (ops_return _ _ p2 H2)).
  - intros (t & E). destruct (fst (text_of is_punct p1)) as [[[n|]|e]|q|] eqn:T.
    + eauto.
    + congruence.
    + destruct (proj1 A ltac:(eauto)) as (e' & X). congruence.
    + exfalso. exact (proj2 (text_panic p1 q H1 T) H).
    + contradiction (proj1 (proj2 (ops_return _ _ p1 H1))).
Qed.

End Api.
