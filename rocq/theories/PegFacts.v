(** The Accepts pass computes the PEG semantics of PegSpec.v, for every grammar with
    a nullability table and a rank table, and terminates. *)

From Coq Require Import String Ascii NArith ZArith PArith List Bool FMapPositive Lia PeanoNat.
From Verif Require Import Base Utf8 Utf8Facts PegSyntax Peg PegSpec.
Import ListNotations.
Open Scope Z_scope.

Arguments sem {G is_punct text}.
Arguments star {G is_punct text}.

(** ** Maps *)

Lemma pkey_inj a b : pkey a = pkey b -> a = b.
Proof. unfold pkey. intro H. apply SuccNat2Pos.inj. exact H. Qed.

Lemma m2_get_empty {A} r pos : m2_get (@m2_empty A) r pos = None.
Proof. unfold m2_get, m2_empty. rewrite PositiveMap.gempty. reflexivity. Qed.

Lemma m2_gss {A} (m : map2 A) r pos a : m2_get (m2_set m r pos a) r pos = Some a.
Proof. unfold m2_get, m2_set. rewrite PositiveMap.gss. apply PositiveMap.gss. Qed.

Lemma m2_gso {A} (m : map2 A) r pos a r' pos' :
  (r', pos') <> (r, pos) -> m2_get (m2_set m r pos a) r' pos' = m2_get m r' pos'.
Proof.
  intro H. unfold m2_get, m2_set.
  destruct (Pos.eq_dec r' r) as [->|Hr].
  - rewrite PositiveMap.gss. rewrite PositiveMap.gso.
    + destruct (PositiveMap.find r m); [reflexivity|]. apply PositiveMap.gempty.
    + intro E. apply pkey_inj in E. subst. apply H. reflexivity.
  - rewrite PositiveMap.gso by exact Hr. reflexivity.
Qed.

Lemma key_dec (r r' : positive) (p p' : nat) : {(r', p') = (r, p)} + {(r', p') <> (r, p)}.
Proof. decide equality; [apply Nat.eq_dec | apply Pos.eq_dec]. Qed.

(** ** Terminals *)

Lemma prefix_nil t : prefix "" t = true.
Proof. destruct t; reflexivity. Qed.

Lemma prefix_cons c s d t : prefix (String c s) (String d t) = if ascii_dec c d then prefix s t else false.
Proof. reflexivity. Qed.

Lemma prefix_app s t : prefix s t = true <-> exists rest, t = (s ++ rest)%string.
Proof.
  revert t. induction s as [|c s IH]; intros t.
  - split; [intros _; exists t; reflexivity | intros _; apply prefix_nil].
  - destruct t as [|d t]; [split; [discriminate | intros [r E]; discriminate]|].
    rewrite prefix_cons. cbn [append]. destruct (ascii_dec c d) as [->|Hc].
    + rewrite IH. split; intros [r E]; exists r; [rewrite E; reflexivity | injection E as E; exact E].
    + split; [discriminate | intros [r E]; injection E as E1 E2; congruence].
Qed.

Lemma prefix_false s t : prefix s t = false <-> forall rest, t <> (s ++ rest)%string.
Proof.
  destruct (prefix s t) eqn:E.
  - apply prefix_app in E. destruct E as [r ->]. split; [discriminate|]. intro H. exfalso. apply (H r). reflexivity.
  - split; [|reflexivity]. intros _ rest Ht. assert (prefix s t = true) by (apply prefix_app; eauto). congruence.
Qed.

Lemma next_width text pos r w : decode_rune (sdrop pos text) = (r, w) -> (pos <= String.length text)%nat ->
  (pos + w <= String.length text)%nat /\ (w = 0%nat -> r = rune_error).
Proof.
  intros H Hp. destruct (String.eqb (sdrop pos text) "") eqn:E.
  - apply String.eqb_eq in E. rewrite E in H. cbn in H. injection H as <- <-. split; [lia | reflexivity].
  - apply String.eqb_neq in E. pose proof (decode_width _ E) as Hw. rewrite H in Hw. cbn in Hw.
    rewrite sdrop_length in Hw. split; lia.
Qed.

Lemma any_ok_spec text pos : any_ok text pos = true <-> fst (decode_rune (sdrop pos text)) <> rune_error.
Proof.
  unfold any_ok, next. destruct (decode_rune (sdrop pos text)) as [r w] eqn:E. cbn.
  rewrite negb_true_iff, orb_false_iff, Nat.eqb_neq, N.eqb_neq. split; [tauto|].
  intro H. split; [|exact H]. intros ->.
  assert (sdrop pos text = ""%string) by (apply decode_width0; rewrite E; reflexivity).
  rewrite H0 in E. cbn in E. congruence.
Qed.

Section Facts.

Variable G : positive -> rule.
Variable is_punct : N -> bool.
Variable text : string.

Notation sem := (@sem G is_punct text).
Notation star := (@star G is_punct text).
Notation L := (String.length text).

(** ** Bounds *)

Variable nullable : positive -> bool.
Variable rank : positive -> nat.
Variable maxrank : nat.

(** May [e] succeed without consuming anything? *)
Fixpoint nul (e : expr) : bool :=
  match e with
  | ELit s => match s with EmptyString => true | _ => false end
  | EClass rs => mem_rune rune_error rs
  | EAny => false
  | EPunct => false
  | ECall r => nullable r
  | ESeq a b => nul a && nul b
  | EChoice a b => nul a || nul b
  | EPlus e => nul e
  | EOpt _ | EAnd _ | ENot _ => true
  | ESub e | ELabel _ e | EAction _ _ e => nul e
  end.

(** Rules called by [e] before anything is consumed have rank below [k]. *)
Fixpoint left_ok (k : nat) (e : expr) : bool :=
  match e with
  | ELit _ | EClass _ | EAny | EPunct => true
  | ECall r => (rank r <? k)%nat
  | ESeq a b => left_ok k a && (if nul a then left_ok k b else true)
  | EChoice a b => left_ok k a && left_ok k b
  | EPlus e | EOpt e | EAnd e | ENot e | ESub e | ELabel _ e | EAction _ _ e => left_ok k e
  end.

(** Nothing that may succeed without consuming is repeated. *)
Fixpoint plus_ok (e : expr) : bool :=
  match e with
  | ELit _ | EClass _ | EAny | EPunct | ECall _ => true
  | ESeq a b | EChoice a b => plus_ok a && plus_ok b
  | EPlus e => negb (nul e) && plus_ok e
  | EOpt e | EAnd e | ENot e | ESub e | ELabel _ e | EAction _ _ e => plus_ok e
  end.

Definition wf_rule (r : positive) : bool :=
  implb (nul (r_body (G r))) (nullable r)
  && left_ok (rank r) (r_body (G r)) && plus_ok (r_body (G r)) && (rank r <=? maxrank)%nat.

Hypothesis wf : forall r, wf_rule r = true.

Lemma wf_nul r : nul (r_body (G r)) = true -> nullable r = true.
Proof.
  pose proof (wf r) as H. unfold wf_rule in H. rewrite !andb_true_iff in H. destruct H as [[[H _] _] _].
  intro E. rewrite E in H. exact H.
Qed.
Lemma wf_left r : left_ok (rank r) (r_body (G r)) = true.
Proof. pose proof (wf r) as H. unfold wf_rule in H. rewrite !andb_true_iff in H. tauto. Qed.
Lemma wf_plus r : plus_ok (r_body (G r)) = true.
Proof. pose proof (wf r) as H. unfold wf_rule in H. rewrite !andb_true_iff in H. tauto. Qed.
Lemma wf_rank r : (rank r <= maxrank)%nat.
Proof. pose proof (wf r) as H. unfold wf_rule in H. rewrite !andb_true_iff, Nat.leb_le in H. tauto. Qed.

(** Positions and error positions stay inside the text; success of a non-nullable
    expression consumes. *)
Definition res_ok (e : expr) (pos : nat) (p : nat) : Prop :=
  (pos <= p <= L)%nat /\ (nul e = false -> (pos < p)%nat).

Lemma sem_bounds_all :
  (forall e pos res err, sem e pos res err -> (pos <= L)%nat ->
     (-1 <= err <= Z.of_nat L) /\ (res = None -> 0 <= err) /\
     match res with Some (p, _) => res_ok e pos p | None => True end) /\
  (forall e pos p k err, star e pos p k err -> (pos <= L)%nat ->
     (0 <= err <= Z.of_nat L) /\ (pos <= p <= L)%nat).
Proof.
  apply sem_star_ind; intros; unfold res_ok in *; cbn [nul];
  repeat match goal with
  | H : (?p <= ?q)%nat -> _, H1 : (?p <= ?q)%nat |- _ => specialize (H H1)
  | H : decode_rune (sdrop ?p _) = (_, _), H1 : (?p <= _)%nat |- _ =>
      pose proof (next_width _ _ _ _ H H1); clear H
  end;
  try (match goal with H : (_ + ?w <= _)%nat /\ (?w = 0%nat -> _) |- _ =>
         destruct H as [Hw1 Hw2]; split; [lia|]; split; [discriminate|]; split; [lia|];
         intro Hm; assert (w <> 0%nat); [|lia]; intro Hw; specialize (Hw2 Hw); subst r;
         first [contradiction | apply mem_rune_false in Hm; contradiction]
       end);
  try (split; [|split]; try discriminate; try tauto; try lia; fail).
  - assert (Hl := f_equal String.length e). rewrite sdrop_length, slength_app in Hl.
    split; [lia|]; split; [discriminate|]; split; [lia|].
    destruct s; [discriminate|]. cbn [String.length]. lia.
  - destruct H as [Ha [Hb [Hc Hd]]]. split; [|split].
    + destruct (r_err (G r)); lia.
    + discriminate.
    + split; [lia|]. intro Hn. apply Hd. destruct (nul (r_body (G r))) eqn:E; [|reflexivity].
      rewrite (wf_nul _ E) in Hn. discriminate.
  - destruct H as [Ha [Hb [Hc Hd]]]. assert (Hp1 : (p1 <= L)%nat) by lia. specialize (H0 Hp1).
    destruct H0 as [Ha' [Hb' [Hc' Hd']]]. split; [lia|]. split; [discriminate|]. split; [lia|].
    intro Hn. apply andb_false_iff in Hn. destruct Hn as [Hn|Hn].
    + specialize (Hd Hn). lia.
    + specialize (Hd' Hn). lia.
  - destruct H as [Ha [Hb [Hc Hd]]]. assert (Hp1 : (p1 <= L)%nat) by lia. specialize (H0 Hp1).
    destruct H0 as [Ha' [Hb' _]]. specialize (Hb' eq_refl). repeat split; lia.
  - destruct H as [Ha [Hb [Hc Hd]]]. split; [lia|]. split; [discriminate|]. split; [lia|].
    intro Hn. apply orb_false_iff in Hn. apply Hd. tauto.
  - destruct H as [Ha [Hb _]]. specialize (Hb eq_refl). destruct H0 as [Ha' [Hb' Hc']].
    split; [lia|]. split; [intro; lia|].
    destruct res as [[p k]|]; [|exact I]. destruct Hc' as [Hc' Hd']. split; [lia|].
    intro Hn. apply orb_false_iff in Hn. apply Hd'. tauto.
  - destruct H as [Ha [Hb [Hc Hd]]]. assert (Hp1 : (p1 <= L)%nat) by lia. specialize (H0 Hp1).
    split; [lia|]. split; [discriminate|]. split; [lia|]. intro Hn. specialize (Hd Hn). lia.
Qed.

Lemma sem_bounds e pos res err : sem e pos res err -> (pos <= L)%nat ->
  -1 <= err <= Z.of_nat L.
Proof. intros H Hp. apply (proj1 sem_bounds_all _ _ _ _ H Hp). Qed.
Lemma sem_none_err e pos err : sem e pos None err -> (pos <= L)%nat -> 0 <= err.
Proof. intros H Hp. apply (proj1 sem_bounds_all _ _ _ _ H Hp). reflexivity. Qed.
Lemma sem_some e pos p k err : sem e pos (Some (p, k)) err -> (pos <= L)%nat -> res_ok e pos p.
Proof. intros H Hp. apply (proj1 sem_bounds_all _ _ _ _ H Hp). Qed.

(** ** Determinism *)

Ltac use_ih :=
  repeat match goal with
  | IH : forall res' err', @PegSpec.sem G is_punct text ?e ?p res' err' -> _ = _ /\ _ = _,
    H : @PegSpec.sem G is_punct text ?e ?p ?r ?er |- _ =>
      let H1 := fresh in let H2 := fresh in
      destruct (IH _ _ H) as [H1 H2]; clear H;
      try discriminate H1; try (injection H1 as H1); subst
  | IH : forall p' k' err', @PegSpec.star G is_punct text ?e ?p p' k' err' -> _,
    H : @PegSpec.star G is_punct text ?e ?p ?r ?k ?er |- _ =>
      let H1 := fresh in let H2 := fresh in let H3 := fresh in
      destruct (IH _ _ _ H) as [H1 [H2 H3]]; clear H; subst
  end.

Lemma sem_det_all :
  (forall e pos res err, sem e pos res err ->
     forall res' err', sem e pos res' err' -> res = res' /\ err = err') /\
  (forall e pos p k err, star e pos p k err ->
     forall p' k' err', star e pos p' k' err' -> p = p' /\ k = k' /\ err = err').
Proof.
  apply sem_star_ind; intros;
  match goal with
  | H : @PegSpec.sem _ _ _ ?e _ ?r ?x |- _ = ?r /\ _ = ?x => inversion H; clear H; subst
  | H : @PegSpec.star _ _ _ ?e _ ?r ?k ?x |- _ = ?r /\ _ = ?k /\ _ = ?x => inversion H; clear H; subst
  end;
  repeat match goal with
  | H : decode_rune ?s = ?a, H1 : decode_rune ?s = ?b |- _ =>
      rewrite H in H1; injection H1; clear H1; intros; subst
  end; try congruence; try contradiction;
  use_ih; try (split; [|split]; reflexivity); try (split; reflexivity); try congruence;
  try (exfalso; eauto; fail).
Qed.

Lemma sem_det e pos r1 r2 e1 e2 : sem e pos r1 e1 -> sem e pos r2 e2 -> r1 = r2 /\ e1 = e2.
Proof. intros. eapply (proj1 sem_det_all); eassumption. Qed.

(** ** Soundness of Accepts *)

(** What the table holds for an outcome. *)
Definition enc (pos : nat) (res : option (nat * list pnode)) : Z :=
  match res with Some (p, _) => Z.of_nat p - Z.of_nat pos | None => -1 end.

Definition enc1 (pos : nat) (res : option (nat * list pnode)) : Z :=
  match res with Some (p, _) => Z.of_nat p - Z.of_nat pos + 1 | None => -1 end.

(** Everything memoised is right. *)
Definition cons (st : mst) : Prop :=
  forall r pos dp de, m2_get (s_delta st) r pos = Some (dp, de) ->
    (pos <= L)%nat /\ exists res err, sem (ECall r) pos res err /\
      dp = enc1 pos res /\ de = err - Z.of_nat pos + 1.

Lemma cons0 : cons mst0.
Proof. intros r pos dp de H. cbn in H. rewrite m2_get_empty in H. discriminate. Qed.

Definition call_sound (call : positive -> nat -> mst -> option (Z * Z * mst)) : Prop :=
  forall r pos st dp de st', call r pos st = Some (dp, de, st') -> (pos <= L)%nat -> cons st ->
    cons st' /\ exists res err, sem (ECall r) pos res err /\ dp = enc pos res /\ de = err - Z.of_nat pos.

Lemma enc_neg pos res : (exists e err, sem e pos res err) -> (pos <= L)%nat ->
  (enc pos res <? 0) = match res with Some _ => false | None => true end.
Proof.
  intros (e & err & H) Hp. destruct res as [[p k]|]; [|reflexivity].
  pose proof (sem_some _ _ _ _ _ H Hp) as [Hb _]. cbn. apply Z.ltb_ge. lia.
Qed.

Lemma next_dec pos : {r & {w | decode_rune (sdrop pos text) = (r, w)}}.
Proof. destruct (decode_rune (sdrop pos text)) as [r w]. eauto. Qed.

Definition acc_good (e : expr) (pos : nat) (perr : Z) (o : option nat) (perr' : Z) (st' : mst) : Prop :=
  cons st' /\ exists res err, sem e pos res err /\ o = option_map fst res /\ perr' = Z.max perr err.

Lemma acc_fail_inv pos perr st o perr' st' : acc_fail pos perr st = Some (o, perr', st') ->
  o = None /\ perr' = Z.max perr (Z.of_nat pos) /\ st' = st.
Proof. unfold acc_fail. intro H. injection H as <- <- <-. auto. Qed.

Notation loop call e1 :=
  (fix loop (n : nat) (pos : nat) (perr : Z) (st : mst) {struct n} : ares :=
     match n with
     | O => None
     | S n' =>
         match acc is_punct text call e1 pos perr st with
         | Some (Some pos1, perr1, st1) => loop n' pos1 perr1 st1
         | Some (None, perr1, st1) => Some (Some pos, perr1, st1)
         | None => None
         end
     end).

Lemma acc_sound call : call_sound call ->
  forall e pos perr st o perr' st',
  acc is_punct text call e pos perr st = Some (o, perr', st') -> (pos <= L)%nat -> cons st -> -1 <= perr ->
  acc_good e pos perr o perr' st'.
Proof.
  intro Hc. induction e; intros pos perr st o perr' st' H Hp Hst Hperr; cbn [acc] in H.
  - unfold has_lit in H. destruct (prefix s (sdrop pos text)) eqn:E.
    + injection H as <- <- <-. split; [exact Hst|]. apply prefix_app in E. destruct E as [rest E].
      eexists _, _. split; [eapply SLit; exact E|]. split; [reflexivity | lia].
    + apply acc_fail_inv in H. destruct H as (-> & -> & ->). split; [exact Hst|].
      eexists _, _. split; [eapply SLitF; apply prefix_false; exact E|]. split; reflexivity.
  - unfold next in H. destruct (decode_rune (sdrop pos text)) as [r w] eqn:E.
    destruct (mem_rune r rs) eqn:M.
    + injection H as <- <- <-. split; [exact Hst|].
      eexists _, _. split; [eapply SClass; [exact E | apply mem_rune_In; exact M]|]. split; [reflexivity | lia].
    + apply acc_fail_inv in H. destruct H as (-> & -> & ->). split; [exact Hst|].
      eexists _, _. split; [eapply SClassF; [exact E | apply mem_rune_false; exact M]|]. split; reflexivity.
  - unfold next in H. destruct (any_ok text pos) eqn:A; destruct (decode_rune (sdrop pos text)) as [r w] eqn:E.
    + apply any_ok_spec in A. rewrite E in A. injection H as <- <- <-. split; [exact Hst|].
      eexists _, _. split; [eapply SAny; [exact E | exact A]|]. split; [reflexivity | lia].
    + assert (Hr : r = rune_error).
      { destruct (N.eq_dec r rune_error) as [|Hn]; [assumption|].
        assert (any_ok text pos = true) by (apply any_ok_spec; rewrite E; exact Hn). congruence. }
      subst r. apply acc_fail_inv in H. destruct H as (-> & -> & ->). split; [exact Hst|].
      eexists _, _. split; [eapply SAnyF; exact E|]. split; reflexivity.
  - unfold next in H. destruct (any_ok text pos) eqn:A; destruct (decode_rune (sdrop pos text)) as [r w] eqn:E.
    + apply any_ok_spec in A. rewrite E in A. cbn in A. destruct (is_punct r) eqn:P.
      * injection H as <- <- <-. split; [exact Hst|].
        eexists _, _. split; [eapply SPunct; eassumption|]. split; [reflexivity | lia].
      * apply acc_fail_inv in H. destruct H as (-> & -> & ->). split; [exact Hst|].
        eexists _, _. split; [eapply SPunctP; eassumption|]. split; reflexivity.
    + assert (Hr : r = rune_error).
      { destruct (N.eq_dec r rune_error) as [|Hn]; [assumption|].
        assert (any_ok text pos = true) by (apply any_ok_spec; rewrite E; exact Hn). congruence. }
      subst r. apply acc_fail_inv in H. destruct H as (-> & -> & ->). split; [exact Hst|].
      eexists _, _. split; [eapply SPunctF; exact E|]. split; reflexivity.
  - destruct (call r pos st) as [[[dp de] st1]|] eqn:E; [|discriminate].
    destruct (Hc _ _ _ _ _ _ E Hp Hst) as (Hst1 & res & err & Hs & -> & ->).
    rewrite (enc_neg pos res) in H by eauto.
    destruct res as [[p k]|]; injection H as <- <- <-; (split; [exact Hst1|]; eexists _, _; split; [exact Hs|]; split; [|f_equal; lia]).
    + pose proof (sem_some _ _ _ _ _ Hs Hp) as [Hb _]. cbn. f_equal. lia.
    + reflexivity.
  - destruct (acc is_punct text call e1 pos perr st) as [[[o1 pe1] st1]|] eqn:E1; [|discriminate].
    apply IHe1 in E1; [|assumption..]. destruct E1 as (Hst1 & res1 & err1 & Hs1 & -> & ->).
    destruct res1 as [[p1 k1]|]; cbn [option_map fst] in H.
    + pose proof (sem_some _ _ _ _ _ Hs1 Hp) as [Hb _]. pose proof (sem_bounds _ _ _ _ Hs1 Hp).
      apply IHe2 in H; [|lia|assumption|lia]. destruct H as (Hst2 & res2 & err2 & Hs2 & -> & ->).
      split; [exact Hst2|]. destruct res2 as [[p2 k2]|]; eexists _, _; (split; [econstructor; eassumption|]); (split; [reflexivity|lia]).
    + injection H as <- <- <-. split; [exact Hst1|]. eexists _, _. split; [eapply SSeqF1; eassumption|]. split; reflexivity.
  - destruct (acc is_punct text call e1 pos perr st) as [[[o1 pe1] st1]|] eqn:E1; [|discriminate].
    apply IHe1 in E1; [|assumption..]. destruct E1 as (Hst1 & res1 & err1 & Hs1 & -> & ->).
    pose proof (sem_bounds _ _ _ _ Hs1 Hp).
    destruct res1 as [[p1 k1]|]; cbn [option_map fst] in H.
    + injection H as <- <- <-. split; [exact Hst1|]. eexists _, _. split; [eapply SChoice1; eassumption|]. split; reflexivity.
    + apply IHe2 in H; [|assumption|assumption|lia]. destruct H as (Hst2 & res2 & err2 & Hs2 & -> & ->).
      split; [exact Hst2|]. eexists _, _. split; [eapply SChoice2; eassumption|]. split; [reflexivity|lia].
  - destruct (acc is_punct text call e pos perr st) as [[[o1 pe1] st1]|] eqn:E1; [|discriminate].
    apply IHe in E1; [|assumption..]. destruct E1 as (Hst1 & res1 & err1 & Hs1 & -> & ->).
    pose proof (sem_bounds _ _ _ _ Hs1 Hp).
    destruct res1 as [[p1 k1]|]; cbn [option_map fst] in H.
    + pose proof (sem_some _ _ _ _ _ Hs1 Hp) as [Hb _].
      assert (HL : forall n p perr st, loop call e n p perr st = Some (o, perr', st') -> (p <= L)%nat -> cons st -> -1 <= perr ->
        cons st' /\ exists p2 k2 err, star e p p2 k2 err /\ o = Some p2 /\ perr' = Z.max perr err).
      { clear - IHe wf. induction n as [|n IHn]; intros p perr st H Hp Hst Hperr; [discriminate|].
        destruct (acc is_punct text call e p perr st) as [[[o1 pe1] st1]|] eqn:E1; [|discriminate].
        apply IHe in E1; [|assumption..]. destruct E1 as (Hst1 & res1 & err1 & Hs1 & -> & ->).
        pose proof (sem_bounds _ _ _ _ Hs1 Hp).
        destruct res1 as [[p1 k1]|]; cbn [option_map fst] in H.
        - pose proof (sem_some _ _ _ _ _ Hs1 Hp) as [Hb _].
          apply IHn in H; [|lia|assumption|lia]. destruct H as (Hst2 & p2 & k2 & err2 & Hs2 & -> & ->).
          split; [exact Hst2|]. eexists _, _, _. split; [eapply StarStep; eassumption|]. split; [reflexivity|lia].
        - injection H as <- <- <-. split; [exact Hst1|]. eexists _, _, _. split; [eapply StarEnd; eassumption|]. split; reflexivity. }
      apply (HL (S L)) in H; [|lia|assumption|lia]. destruct H as (Hst2 & p2 & k2 & err2 & Hs2 & -> & ->).
      split; [exact Hst2|]. eexists _, _. split; [eapply SPlus; eassumption|]. split; [reflexivity|lia].
    + injection H as <- <- <-. split; [exact Hst1|]. eexists _, _. split; [eapply SPlusF; eassumption|]. split; reflexivity.
  - destruct (acc is_punct text call e pos perr st) as [[[o1 pe1] st1]|] eqn:E1; [|discriminate].
    apply IHe in E1; [|assumption..]. destruct E1 as (Hst1 & res1 & err1 & Hs1 & -> & ->).
    destruct res1 as [[p1 k1]|]; cbn [option_map fst] in H; injection H as <- <- <-;
    (split; [exact Hst1|]; eexists _, _; split; [econstructor; eassumption|]; split; reflexivity).
  - destruct (acc is_punct text call e pos perr st) as [[[o1 pe1] st1]|] eqn:E1; [|discriminate].
    apply IHe in E1; [|assumption..]. destruct E1 as (Hst1 & res1 & err1 & Hs1 & -> & ->).
    destruct res1 as [[p1 k1]|]; cbn [option_map fst acc_fail] in H; injection H as <- <- <-;
    (split; [exact Hst1|]; eexists _, _; split; [econstructor; eassumption|]; split; [reflexivity|lia]).
  - destruct (acc is_punct text call e pos perr st) as [[[o1 pe1] st1]|] eqn:E1; [|discriminate].
    apply IHe in E1; [|assumption..]. destruct E1 as (Hst1 & res1 & err1 & Hs1 & -> & ->).
    destruct res1 as [[p1 k1]|]; cbn [option_map fst acc_fail] in H; injection H as <- <- <-;
    (split; [exact Hst1|]; eexists _, _; split; [econstructor; eassumption|]; split; [reflexivity|lia]).
  - apply IHe in H; [|assumption..]. destruct H as (Hst1 & res1 & err1 & Hs1 & -> & ->).
    split; [exact Hst1|]. destruct res1 as [[p1 k1]|]; eexists _, _; (split; [econstructor; eassumption|]); split; reflexivity.
  - apply IHe in H; [|assumption..]. destruct H as (Hst1 & res1 & err1 & Hs1 & -> & ->).
    split; [exact Hst1|]. eexists _, _; (split; [econstructor; eassumption|]); split; reflexivity.
  - apply IHe in H; [|assumption..]. destruct H as (Hst1 & res1 & err1 & Hs1 & -> & ->).
    split; [exact Hst1|]. eexists _, _; (split; [econstructor; eassumption|]); split; reflexivity.
Qed.

Lemma memoize_cons st r pos res err :
  cons st -> (pos <= L)%nat -> sem (ECall r) pos res err ->
  cons (Mst (m2_set (s_delta st) r pos (enc1 pos res, err - Z.of_nat pos + 1)) err).
Proof.
  intros Hst Hp Hs r' pos' dp de H. cbn [s_delta] in H.
  destruct (key_dec r r' pos pos') as [E|N].
  - injection E as -> ->. rewrite m2_gss in H. injection H as <- <-. split; [exact Hp|]. eauto.
  - rewrite m2_gso in H by exact N. eapply Hst. exact H.
Qed.

Lemma accepts_sound fuel : call_sound (accepts G is_punct text fuel).
Proof.
  induction fuel as [|fuel IH]; intros r pos st dp de st' H Hp Hst; cbn [accepts] in H; [discriminate|].
  unfold memo, delta in H. destruct (m2_get (s_delta st) r pos) as [[dp0 de0]|] eqn:Eg.
  - destruct (Hst _ _ _ _ Eg) as (_ & res & err & Hs & -> & ->).
    assert (Hz : (enc1 pos res =? 0) = false /\ (if 0 <? enc1 pos res then enc1 pos res - 1 else enc1 pos res) = enc pos res).
    { destruct res as [[p k]|]; cbn; [|auto]. pose proof (sem_some _ _ _ _ _ Hs Hp) as [Hb _].
      rewrite (proj2 (Z.ltb_lt 0 _)) by lia. split; [apply Z.eqb_neq; lia | lia]. }
    destruct Hz as [Hz0 Hz]. rewrite Hz0, Hz in H. injection H as <- <- <-.
    split; [exact Hst|]. exists res, err. split; [exact Hs|]. split; [reflexivity|lia].
  - cbn in H. destruct (acc is_punct text (accepts G is_punct text fuel) (r_body (G r)) pos (-1) st) as [[[o perr] st1]|] eqn:E; [|discriminate].
    apply (acc_sound _ IH) in E; [|assumption|assumption|lia].
    destruct E as (Hst1 & res & err & Hs & -> & ->). pose proof (sem_bounds _ _ _ _ Hs Hp) as Hbe.
    replace (Z.max (-1) err) with err in H by lia.
    destruct res as [[p k]|]; cbn [option_map fst] in H.
    + pose proof (SCall G is_punct text r pos p k err Hs) as Hcall.
      pose proof (sem_some _ _ _ _ _ Hs Hp) as [Hb _].
      set (err' := match r_err (G r) with Some _ => Z.of_nat pos | None => err end) in *.
      unfold memoize in H. rewrite (proj2 (Z.leb_le 0 (Z.of_nat p))) in H by lia.
      injection H as <- <- <-. split.
      * apply (memoize_cons st1 r pos _ err' Hst1 Hp Hcall).
      * eexists _, _. split; [exact Hcall|]. split; reflexivity.
    + pose proof (SCallF G is_punct text r pos err Hs) as Hcall.
      unfold memoize in H. cbn in H. injection H as <- <- <-. split.
      * apply (memoize_cons st1 r pos _ err Hst1 Hp Hcall).
      * eexists _, _. split; [exact Hcall|]. split; reflexivity.
Qed.

(** ** Termination of Accepts *)

(** [call] returns for rules of rank below [k] at [pos0] and for all rules later. *)
Definition call_total (call : positive -> nat -> mst -> option (Z * Z * mst)) (pos0 k : nat) : Prop :=
  forall r pos st, (pos0 <= pos <= L)%nat -> (pos = pos0 -> (rank r < k)%nat) -> cons st ->
    call r pos st <> None.

Lemma acc_total call pos0 k : call_sound call -> call_total call pos0 k ->
  forall e pos perr st, (pos0 <= pos <= L)%nat -> (pos = pos0 -> left_ok k e = true) -> plus_ok e = true ->
  cons st -> -1 <= perr -> acc is_punct text call e pos perr st <> None.
Proof.
  intros Hc Ht. induction e; intros pos perr st Hp Hl Hpl Hst Hperr; cbn [acc]; cbn [left_ok plus_ok] in Hl, Hpl.
  - destruct (has_lit text s pos); discriminate.
  - destruct (next text pos) as [r w]. destruct (mem_rune r rs); discriminate.
  - destruct (any_ok text pos); discriminate.
  - destruct (any_ok text pos); [|discriminate]. destruct (next text pos) as [r w]. destruct (is_punct r); discriminate.
  - destruct (call r pos st) as [[[dp de] st1]|] eqn:E.
    + destruct (dp <? 0); discriminate.
    + exfalso. eapply (Ht r pos st); [exact Hp| |exact Hst|exact E]. intro Hq. apply Nat.ltb_lt, Hl, Hq.
  - apply andb_true_iff in Hpl. destruct Hpl as [Hpl1 Hpl2].
    assert (Hl1 : pos = pos0 -> left_ok k e1 = true) by (intro Hq; apply Hl, andb_true_iff in Hq; tauto).
    specialize (IHe1 pos perr st Hp Hl1 Hpl1 Hst Hperr).
    destruct (acc is_punct text call e1 pos perr st) as [[[o1 pe1] st1]|] eqn:E1; [|contradiction].
    apply (acc_sound _ Hc) in E1; [|lia|assumption..]. destruct E1 as (Hst1 & res1 & err1 & Hs1 & -> & ->).
    destruct res1 as [[p1 k1]|]; cbn [option_map fst]; [|discriminate].
    assert (HpL : (pos <= L)%nat) by lia.
    pose proof (sem_some _ _ _ _ _ Hs1 HpL) as [Hb Hn]. pose proof (sem_bounds _ _ _ _ Hs1 HpL).
    apply IHe2; [lia| |assumption|assumption|lia].
    intro Hq. assert (Hq' : pos = pos0) by lia. apply Hl, andb_true_iff in Hq'. destruct Hq' as [_ Hq'].
    destruct (nul e1) eqn:En; [exact Hq'|]. specialize (Hn eq_refl). lia.
  - apply andb_true_iff in Hpl. destruct Hpl as [Hpl1 Hpl2].
    assert (Hl1 : pos = pos0 -> left_ok k e1 = true) by (intro Hq; apply Hl, andb_true_iff in Hq; tauto).
    assert (Hl2 : pos = pos0 -> left_ok k e2 = true) by (intro Hq; apply Hl, andb_true_iff in Hq; tauto).
    specialize (IHe1 pos perr st Hp Hl1 Hpl1 Hst Hperr).
    destruct (acc is_punct text call e1 pos perr st) as [[[o1 pe1] st1]|] eqn:E1; [|contradiction].
    apply (acc_sound _ Hc) in E1; [|lia|assumption..]. destruct E1 as (Hst1 & res1 & err1 & Hs1 & -> & ->).
    destruct res1 as [[p1 k1]|]; cbn [option_map fst]; [discriminate|].
    assert (HpL : (pos <= L)%nat) by lia. pose proof (sem_bounds _ _ _ _ Hs1 HpL).
    apply IHe2; try assumption; lia.
  - apply andb_true_iff in Hpl. destruct Hpl as [Hn Hpl]. apply negb_true_iff in Hn.
    pose proof (IHe pos perr st Hp Hl Hpl Hst Hperr) as H1.
    destruct (acc is_punct text call e pos perr st) as [[[o1 pe1] st1]|] eqn:E1; [|contradiction].
    apply (acc_sound _ Hc) in E1; [|lia|assumption..]. destruct E1 as (Hst1 & res1 & err1 & Hs1 & -> & ->).
    destruct res1 as [[p1 k1]|]; cbn [option_map fst]; [|discriminate].
    assert (HpL : (pos <= L)%nat) by lia.
    pose proof (sem_some _ _ _ _ _ Hs1 HpL) as [Hb Hlt]. specialize (Hlt Hn). pose proof (sem_bounds _ _ _ _ Hs1 HpL).
    assert (HL : forall n p perr st, (L - p < n)%nat -> (pos0 < p <= L)%nat -> cons st -> -1 <= perr -> loop call e n p perr st <> None).
    { clear - IHe Hc Hn Hpl wf. induction n as [|n IHn]; intros p perr st Hle Hp Hst Hperr; [lia|].
      assert (H1 : acc is_punct text call e p perr st <> None) by (apply IHe; [lia|intro; lia|assumption..]).
      destruct (acc is_punct text call e p perr st) as [[[o1 pe1] st1]|] eqn:E1; [|contradiction].
      apply (acc_sound _ Hc) in E1; [|lia|assumption..]. destruct E1 as (Hst1 & res1 & err1 & Hs1 & -> & ->).
      destruct res1 as [[p1 k1]|]; cbn [option_map fst]; [|discriminate].
      assert (HpL : (p <= L)%nat) by lia.
      pose proof (sem_some _ _ _ _ _ Hs1 HpL) as [Hb Hlt]. specialize (Hlt Hn). pose proof (sem_bounds _ _ _ _ Hs1 HpL).
      apply IHn; [lia|lia|assumption|lia]. }
    apply (HL (S L)); [lia|lia|assumption|lia].
  - specialize (IHe pos perr st Hp Hl Hpl Hst Hperr).
    destruct (acc is_punct text call e pos perr st) as [[[[p1|] pe1] st1]|]; [discriminate|discriminate|contradiction].
  - specialize (IHe pos perr st Hp Hl Hpl Hst Hperr).
    destruct (acc is_punct text call e pos perr st) as [[[[p1|] pe1] st1]|]; [discriminate|discriminate|contradiction].
  - specialize (IHe pos perr st Hp Hl Hpl Hst Hperr).
    destruct (acc is_punct text call e pos perr st) as [[[[p1|] pe1] st1]|]; [discriminate|discriminate|contradiction].
  - apply IHe; assumption.
  - apply IHe; assumption.
  - apply IHe; assumption.
Qed.

(** Recursion depth that suffices for rule [r] at [pos]. *)
Definition depth (r : positive) (pos : nat) : nat := (L - pos) * S maxrank + rank r + 1.

Lemma depth_step r r' pos pos' : (pos <= pos' <= L)%nat -> (pos' = pos -> (rank r' < rank r)%nat) ->
  (depth r' pos' < depth r pos)%nat.
Proof.
  intros Hp Hr. unfold depth. pose proof (wf_rank r'). destruct (Nat.eq_dec pos' pos) as [->|Hne].
  - specialize (Hr eq_refl). lia.
  - assert (S (L - pos') <= L - pos)%nat by lia.
    assert ((S (L - pos')) * S maxrank <= (L - pos) * S maxrank)%nat by (apply Nat.mul_le_mono_r; assumption). lia.
Qed.

Lemma accepts_total fuel : forall r pos st, (depth r pos <= fuel)%nat -> (pos <= L)%nat -> cons st ->
  accepts G is_punct text fuel r pos st <> None.
Proof.
  induction fuel as [|fuel IH]; intros r pos st Hd Hp Hst; [unfold depth in Hd; lia|].
  cbn [accepts]. destruct (memo st r pos) as [[dp de]|]; [discriminate|].
  assert (Ha : acc is_punct text (accepts G is_punct text fuel) (r_body (G r)) pos (-1) st <> None).
  { apply (acc_total _ pos (rank r)); try assumption; try lia.
    - apply accepts_sound.
    - intros r' pos' st' Hp' Hr' Hst'. apply IH; [|lia|assumption].
      pose proof (depth_step r r' pos pos' Hp' Hr'). lia.
    - intros _. apply wf_left.
    - apply wf_plus. }
  destruct (acc is_punct text (accepts G is_punct text fuel) (r_body (G r)) pos (-1) st) as [[[[p|] pe] st1]|]; [discriminate|discriminate|contradiction].
Qed.

(** Totality of the semantics. *)
Lemma sem_total r pos : (pos <= L)%nat -> exists res err, sem (ECall r) pos res err.
Proof.
  intro Hp. pose proof (accepts_total _ r pos mst0 (le_n _) Hp cons0) as H.
  destruct (accepts G is_punct text (depth r pos) r pos mst0) as [[[dp de] st]|] eqn:E; [|contradiction].
  destruct (accepts_sound _ _ _ _ _ _ _ E Hp cons0) as (_ & res & err & Hs & _). eauto.
Qed.

End Facts.
