(** Errors of Tree, Text and Word across calls, with and without DedupFails. *)

From Coq Require Import String NArith ZArith List Bool Arith Lia FMapPositive.
From Verif Require Import Base Utf8 Loc PegSyntax Grammar Peg PegToaq PegSpec PegFacts NodeFacts PegToaqFacts Parser ParserSpec FailFacts ParserFacts
  ActionSpec ActionFacts ApiFacts Dedup DedupSpec DedupFacts ErrFacts.
Import ListNotations.
Open Scope list_scope.
Open Scope Z_scope.

Section Api.
Variable is_punct : N -> bool.
Variable text : string.
Notation sem := (@PegSpec.sem toaq is_punct text).
Notation L := (String.length text).
Notation pinv := (ParserFacts.pinv is_punct text).
Notation cons := (PegFacts.cons toaq is_punct text).
Notation tree := (tree is_punct).
Notation text_of := (text_of is_punct).
Notation word_at := (word_at is_punct).
Notation parse := (parse is_punct).
Notation linv := (ErrFacts.linv is_punct text).
Notation failed := (ErrFacts.failed is_punct text).
Notation rejected := (ErrFacts.rejected is_punct text).

(** ** What operations do to the tables *)

Definition same_tables (p q : parser) : Prop := q_m p = q_m q /\ q_fail p = q_fail q.

Lemma tree_tables p : same_tables (snd (tree p)) (snd (parse r_full_text 0 p)).
Proof.
  unfold Parser.tree. destruct (parse r_full_text 0 p) as [[[e|]|q|] p1]; try (split; reflexivity). cbv zeta.
  destruct (node_of _ _ _ _ _ _ _ _) as [[[[]|] st]|]; split; reflexivity.
Qed.
Lemma text_tables p : same_tables (snd (text_of p)) (snd (parse r_full_text 0 p)).
Proof.
  unfold Parser.text_of. destruct (parse r_full_text 0 p) as [[[e|]|q|] p1]; try (split; reflexivity). cbv zeta.
  destruct (Action.action_of _ _ _ _ _ _ _ _) as [[[| |q []] st]|]; split; reflexivity.
Qed.
Lemma word_tables offs p : same_tables (snd (word_at offs p)) (snd (parse r_word offs p)).
Proof.
  unfold Parser.word_at. destruct (parse r_word offs p) as [[[e|]|q|] p1]; try (split; reflexivity). cbv zeta.
  destruct (Action.action_of _ _ _ _ _ _ _ _) as [[[| |q []] st]|]; split; reflexivity.
Qed.

Lemma linv_tables p q : same_tables p q -> pinv p -> linv q -> linv p.
Proof. intros [A _] I [_ Lf]. split; [exact I|]. rewrite A. exact Lf. Qed.
Lemma failed_tables e p q : same_tables p q -> pinv p -> failed e q -> failed e p.
Proof. intros T I (A & B & C & D). split; [eapply linv_tables; eassumption|]. destruct T as [T1 T2]. rewrite T1. split; [exact B|]. unfold root in *. rewrite T2. auto. Qed.

Lemma tree_err p e : fst (tree p) = Ok (Err e) <-> fst (parse r_full_text 0 p) = Ok (Some e).
Proof.
  unfold Parser.tree. destruct (parse r_full_text 0 p) as [[[e'|]|q|] p1]; cbn [fst]; try (split; intros H; congruence).
  destruct (node_of _ _ _ _ _ _ _ _) as [[o st]|]; split; intros H; discriminate.
Qed.
Lemma text_err p e : fst (text_of p) = Ok (Err e) <-> fst (parse r_full_text 0 p) = Ok (Some e).
Proof.
  unfold Parser.text_of. destruct (parse r_full_text 0 p) as [[[e'|]|q|] p1]; cbn [fst]; try (split; intros H; congruence). cbv zeta.
  destruct (Action.action_of _ _ _ _ _ _ _ _) as [[[| |q []] st]|]; split; intros H; discriminate.
Qed.
Lemma word_err offs p e : fst (word_at offs p) = Ok (Err e) <-> fst (parse r_word offs p) = Ok (Some e).
Proof.
  unfold Parser.word_at. destruct (parse r_word offs p) as [[[e'|]|q|] p1]; cbn [fst]; try (split; intros H; congruence). cbv zeta.
  destruct (Action.action_of _ _ _ _ _ _ _ _) as [[[| |q []] st]|]; split; intros H; discriminate.
Qed.

(** ** One error *)

Lemma full_used : used r_full_text 0%nat. Proof. left. split; reflexivity. Qed.
Lemma word_used offs : used r_word offs. Proof. right. reflexivity. Qed.

Lemma linv_ops p : rejected -> linv p -> linv (snd (tree p)) /\ linv (snd (text_of p)) /\ forall offs, linv (snd (word_at offs p)).
Proof.
  intros R I. split; [|split; [|intros offs]]; (eapply linv_tables; [apply tree_tables || apply text_tables || apply word_tables| |eapply parse_linv; [exact R| |exact I]; apply full_used || apply word_used]).
  - apply tree_ok, I. - apply text_ok, I. - apply word_ok, I.
Qed.
Lemma reach_linv p : rejected -> Parser.reach is_punct text p -> linv p.
Proof.
  intros R H. induction H.
  - split; [apply pinv_new|]. cbn. lia.
  - apply linv_ops; assumption. - apply linv_ops; assumption. - apply linv_ops; assumption.
Qed.

Lemma first_error p e : linv p -> fst (tree p) = Ok (Err e) \/ fst (text_of p) = Ok (Err e) ->
  rejected /\ failed e (snd (tree p)) /\ failed e (snd (text_of p)).
Proof.
  intros I E. assert (E' : fst (parse r_full_text 0 p) = Ok (Some e)) by (destruct E as [E|E]; [apply tree_err|apply text_err]; exact E).
  destruct (parse_first _ _ p e I E') as [R F]. split; [exact R|]. split; (eapply failed_tables; [apply tree_tables || apply text_tables| |exact F]).
  - apply tree_ok, I. - apply text_ok, I.
Qed.
Lemma failed_ops e p : rejected -> failed e p ->
  (failed e (snd (tree p)) /\ failed e (snd (text_of p)) /\ forall offs, failed e (snd (word_at offs p))) /\
  fst (tree p) = Ok (Err e) /\ fst (text_of p) = Ok (Err e).
Proof.
  intros R F. assert (I : pinv p) by apply F. destruct (parse_failed _ _ e p _ _ R full_used F) as [F1 E]. specialize (E eq_refl eq_refl).
  split; [|split; [apply tree_err, E|apply text_err, E]]. split; [|split; [|intros offs]].
  - eapply failed_tables; [apply tree_tables|apply tree_ok, I|exact F1].
  - eapply failed_tables; [apply text_tables|apply text_ok, I|exact F1].
  - eapply failed_tables; [apply word_tables|apply word_ok, I|]. apply parse_failed; [exact R|apply word_used|exact F].
Qed.
Lemma later_failed e p q : rejected -> failed e p -> later is_punct p q -> failed e q.
Proof. intros R F H. induction H; [exact F| | |]; apply failed_ops; assumption. Qed.

Lemma reach_rejected p e : Parser.reach is_punct text p -> fst (tree p) = Ok (Err e) \/ fst (text_of p) = Ok (Err e) -> rejected.
Proof.
  intros H E. apply reach_pinv in H. destruct E as [E|E].
  - destruct (tree_ok _ _ _ H) as [S _]. rewrite E in S. inversion S; subst. eexists; eassumption.
  - destruct (text_ok _ _ _ H) as [S _]. rewrite E in S. inversion S; subst. eexists; eassumption.
Qed.

Theorem one_error p e q : Parser.reach is_punct text p -> fst (tree p) = Ok (Err e) \/ fst (text_of p) = Ok (Err e) ->
  later is_punct (snd (tree p)) q \/ later is_punct (snd (text_of p)) q ->
  fst (tree q) = Ok (Err e) /\ fst (text_of q) = Ok (Err e).
Proof.
  intros H E Lq. assert (R := reach_rejected p e H E). destruct (first_error p e (reach_linv p R H) E) as (_ & F1 & F2).
  assert (F : failed e q) by (destruct Lq as [Lq|Lq]; [exact (later_failed e _ q R F1 Lq)|exact (later_failed e _ q R F2 Lq)]).
  exact (proj2 (failed_ops e q R F)).
Qed.
Theorem same_error p e : Parser.reach is_punct text p -> (fst (tree p) = Ok (Err e) <-> fst (text_of p) = Ok (Err e)).
Proof. intros _. rewrite tree_err, text_err. reflexivity. Qed.

(** ** DedupFails *)

Lemma find_map {A B} (g : A -> B) k m : PositiveMap.find k (PositiveMap.map g m) = option_map g (PositiveMap.find k m).
Proof. unfold PositiveMap.map. rewrite PositiveMap.gmapi. reflexivity. Qed.
Lemma m2_map {A B} (g : A -> B) m r pos : m2_get (PositiveMap.map (PositiveMap.map g) m) r pos = option_map g (m2_get m r pos).
Proof. unfold m2_get. rewrite find_map. destruct (PositiveMap.find r m); cbn [option_map]; [apply find_map|reflexivity]. Qed.

Definition hmap (s : plan) (h : heap) : heap := fun i => option_map (after s) (h i).
Lemma after_idof s n : f_idof (after s n) = f_idof n. Proof. destruct n; reflexivity. Qed.
Lemma after_consistent s h f : consistent h f -> consistent (hmap s h) (after s f).
Proof. intros C n S. apply after_sub in S. destruct S as (m & S & ->). unfold hmap. rewrite after_idof, (C m S). reflexivity. Qed.
Lemma after_pos_ok s len f : pos_ok len f -> pos_ok len (after s f).
Proof. intros C n S. apply after_sub in S. destruct S as (m & S & ->). rewrite after_pos. apply C, S. Qed.

Definition dinv (p : parser) : Prop := pinv p /\ drise (q_fail p).
Lemma dedup_dinv n p : dinv p -> dinv (dedup_parser n p).
Proof.
  intros [[Ht Hc Hcl [h [F1 F2]] Hn Ha] D]. split; [constructor; cbn; try assumption|].
  - exists (hmap (dedup_plan n) h). split; cbn.
    + intros i X. apply F1. unfold hmap in X. destruct (h i); [discriminate|exact X].
    + intros r pos f E. rewrite m2_map in E. destruct (m2_get (s_fail (q_fail p)) r pos) as [f0|] eqn:E0; [|discriminate]. injection E as <-.
      destruct (F2 _ _ _ E0). split; [apply after_consistent|apply after_pos_ok]; assumption.
  - intros r pos f E. cbn in E. rewrite m2_map in E. destruct (m2_get (s_fail (q_fail p)) r pos) as [f0|] eqn:E0; [|discriminate]. injection E as <-.
    destruct (D _ _ _ E0). split; [apply after_rises; assumption|rewrite after_pos; assumption].
Qed.

Lemma parse_dinv r start p : dinv p -> drise (q_fail (snd (parse r start p))) /\
  forall e, fst (parse r start p) = Ok (Some e) -> (exists h, consistent h (pe_tree e)) /\ rises (pe_tree e).
Proof.
  intros [I D]. destruct (le_lt_dec start L) as [Hs|Hs]; [|rewrite (parse_beyond _ _ _ _ _ I Hs); cbn [fst snd]; split; [exact D|discriminate]].
  destruct (parse_case _ _ r start p I Hs) as (res & err & m1 & Se & _ & Cm & _ & _ & C). destruct res as [x|].
  - rewrite C. cbn [fst snd]. split; [exact D|discriminate].
  - destruct C as (o & f & fs & e & h & Ef & Es & Hc & _ & C). rewrite C. cbn [fst snd q_fail].
    destruct (fail_rise _ _ _ _ _ _ toaq_wf m1 Cm _ _ _ _ _ _ _ _ D Ef) as (A & _ & B & _). split; [exact A|].
    intros e' Q. injection Q as <-. rewrite (simple_tree _ _ _ Es). split; [exists h; exact Hc|exact B].
Qed.
Lemma dinv_tables p q : same_tables p q -> pinv p -> drise (q_fail q) -> dinv p.
Proof. intros [_ T] I D. split; [exact I|]. rewrite T. exact D. Qed.
Lemma dinv_ops p : dinv p -> dinv (snd (tree p)) /\ dinv (snd (text_of p)) /\ forall offs, dinv (snd (word_at offs p)).
Proof.
  intros D. assert (I : pinv p) by apply D. split; [|split; [|intros offs]]; (eapply dinv_tables; [apply tree_tables || apply text_tables || apply word_tables| |apply parse_dinv, D]).
  - apply tree_ok, I. - apply text_ok, I. - apply word_ok, I.
Qed.
Lemma reach_dinv p : reach_dedup is_punct text p -> dinv p.
Proof.
  intros H. induction H.
  - split; [apply pinv_new|]. intros r pos f E. cbn in E. rewrite m2_get_empty in E. discriminate.
  - apply dinv_ops; assumption. - apply dinv_ops; assumption. - apply dinv_ops; assumption.
  - apply dedup_dinv, dinv_ops; assumption. - apply dedup_dinv, dinv_ops; assumption. - apply dedup_dinv, dinv_ops; assumption.
Qed.
Lemma reach_without p : Parser.reach is_punct text p -> reach_dedup is_punct text p.
Proof. intros H. induction H; [constructor|apply DTree|apply DWord|apply DText]; assumption. Qed.

(** An error that some operation returns. *)
Definition gives (p : parser) (e : perror) : Prop :=
  fst (tree p) = Ok (Err e) \/ fst (text_of p) = Ok (Err e) \/ exists offs, fst (word_at offs p) = Ok (Err e).
Lemma gives_tree p e : dinv p -> gives p e -> (exists h, consistent h (pe_tree e)) /\ rises (pe_tree e) /\ good_error text e.
Proof.
  intros D G. assert (I : pinv p) by apply D. destruct G as [E|[E|(offs & E)]].
  - assert (E' := E). apply tree_err in E'. apply (parse_dinv _ _ _ D) in E'. destruct E' as [A B]. split; [exact A|]. split; [exact B|].
    destruct (tree_ok _ _ _ I) as [S _]. rewrite E in S. inversion S; subst; assumption.
  - assert (E' := E). apply text_err in E'. apply (parse_dinv _ _ _ D) in E'. destruct E' as [A B]. split; [exact A|]. split; [exact B|].
    destruct (text_ok _ _ _ I) as [S _]. rewrite E in S. inversion S; subst; assumption.
  - assert (E' := E). apply word_err in E'. apply (parse_dinv _ _ _ D) in E'. destruct E' as [A B]. split; [exact A|]. split; [exact B|].
    destruct (word_ok _ _ offs _ I) as [S _]. rewrite E in S. inversion S; subst; assumption.
Qed.

Theorem dedup_error p e : reach_dedup is_punct text p -> gives p e ->
  map label (preorder (dedup (pe_tree e))) = map label (firsts [] (preorder (pe_tree e))) /\
  NoDup (map address (preorder (dedup (pe_tree e)))) /\
  byte_offset (dedup (pe_tree e)) = pe_offset e /\
  incl (map label (leaf_fails (pe_tree e))) (map label (filter is_leaf (preorder (dedup (pe_tree e))))).
Proof.
  intros H G. apply reach_dinv in H. destruct (gives_tree p e H G) as ((h & C) & R & _). destruct (dedup_spec h _ C) as [A B].
  split; [exact A|]. split; [exact B|]. split; [eapply dedup_offset; eassumption|eapply dedup_leaves; eassumption].
Qed.
Theorem leaves_error p e : reach_dedup is_punct text p -> gives p e ->
  leaf_fails (pe_tree e) = leaves_at (pe_offset e) (pe_tree e).
Proof. intros H G. apply reach_dinv in H. destruct (gives_tree p e H G) as ((h & C) & R & _). apply (leaf_spec h), C. Qed.

Theorem dedup_located p e : reach_dedup is_punct text p -> gives p e ->
  0 <= pe_offset e <= Z.of_nat L /\ location text (Z.to_nat (pe_offset e)) = Some (pe_loc e).
Proof. intros H G. apply reach_dinv in H. destruct (gives_tree p e H G) as (_ & _ & A & B & _). split; assumption. Qed.

Ltac det :=
  repeat match goal with
  | H1 : PegSpec.sem ?e ?p ?a ?b, H2 : PegSpec.sem ?e ?p ?c ?d |- _ =>
      let Q := fresh in pose proof (proj1 (sem_det _ _ _ _ _ _ _ _ _ H1 H2)) as Q; clear H2;
      try discriminate Q; try (injection Q as Q); subst
  | H1 : ActionSpec.vsem _ _ _ ?e ?p ?a, H2 : ActionSpec.vsem _ _ _ ?e ?p ?c |- _ =>
      let Q := fresh in pose proof (vsem_det _ _ _ _ _ _ _ H1 H2) as Q; clear H2;
      try discriminate Q; try (injection Q as Q); subst
  end.

Theorem dedup_history p1 p2 : reach_dedup is_punct text p1 -> reach_dedup is_punct text p2 ->
  same_outcome (fst (tree p1)) (fst (tree p2)) /\ same_outcome (fst (text_of p1)) (fst (text_of p2)) /\
  forall offs, same_outcome (fst (word_at offs p1)) (fst (word_at offs p2)).
Proof.
  intros H1 H2. apply reach_dinv in H1. apply reach_dinv in H2. destruct H1 as [H1 _], H2 as [H2 _]. split; [|split; [|intro offs]].
  - destruct (tree_ok _ _ _ H1) as [S1 _]. destruct (tree_ok _ _ _ H2) as [S2 _].
    destruct S1, S2; cbn; det; auto.
  - destruct (text_ok _ _ _ H1) as [S1 _]. destruct (text_ok _ _ _ H2) as [S2 _].
    destruct S1, S2; cbn; det; try reflexivity; auto;
      match goal with H : forall n, Action.VNode ?m <> Action.VNode n |- _ => contradiction (H m); reflexivity end.
  - destruct (word_ok _ _ offs _ H1) as [S1 _]. destruct (word_ok _ _ offs _ H2) as [S2 _].
    destruct S1, S2; cbn; try lia; det; try reflexivity; auto;
      match goal with H : forall n, Action.VWord ?m <> Action.VWord n |- _ => contradiction (H m); reflexivity end.
Qed.

(** The error after DedupFails. *)
Lemma reach_dedup_linv p : rejected -> reach_dedup is_punct text p -> linv p.
Proof.
  intros R H. assert (D : forall n q, dinv q -> linv q -> linv (dedup_parser n q)).
  { intros n q Q [_ Lf]. split; [apply dedup_dinv, Q|exact Lf]. }
  induction H.
  - split; [apply pinv_new|]. cbn. lia.
  - apply linv_ops; assumption. - apply linv_ops; assumption. - apply linv_ops; assumption.
  - apply D; [apply dinv_ops, reach_dinv, H|apply linv_ops; assumption].
  - apply D; [apply dinv_ops, reach_dinv, H|apply linv_ops; assumption].
  - apply D; [apply dinv_ops, reach_dinv, H|apply linv_ops; assumption].
Qed.

Theorem after_dedup p e : reach_dedup is_punct text p -> fst (tree p) = Ok (Err e) ->
  exists e', pe_tree e' = dedup (pe_tree e) /\ pe_offset e' = pe_offset e /\ pe_loc e' = pe_loc e /\
    forall q, later is_punct (dedup_parser (pe_tree e) (snd (tree p))) q -> fst (tree q) = Ok (Err e') /\ fst (text_of q) = Ok (Err e').
Proof.
  intros H E. assert (Di := reach_dinv _ H). assert (R : rejected).
  { destruct (tree_ok _ _ _ (proj1 Di)) as [S _]. rewrite E in S. inversion S; subst. eexists; eassumption. }
  assert (LI := reach_dedup_linv _ R H). destruct (first_error p e LI (or_introl E)) as (_ & (F1 & F2 & F3 & F4) & _).
  destruct (gives_tree p e Di (or_introl E)) as ((h & C) & Ri & G1 & G2 & G3 & G4).
  set (n := pe_tree e) in *. assert (Cd := after_consistent (dedup_plan n) h n C). fold (dedup n) in Cd.
  assert (O : byte_offset (dedup n) = byte_offset n) by (eapply dedup_offset; eassumption).
  assert (P : pos_ok L (dedup n)).
  { apply after_pos_ok. destruct F1 as [[_ _ _ [h' [_ X]] _ _] _]. apply (X _ _ _ F3). }
  destruct (simple_error_ok _ _ _ Cd P) as (e' & Es & G'). assert (T := simple_tree _ _ _ Es). exists e'.
  assert (Oe : pe_offset e' = pe_offset e) by (unfold pe_offset; rewrite T; exact O).
  split; [exact T|]. split; [exact Oe|]. split.
  { destruct G' as (_ & G' & _). rewrite Oe, G2 in G'. congruence. }
  assert (F : failed e' (dedup_parser n (snd (tree p)))).
  { split; [split; [apply dedup_dinv, dinv_ops, Di|apply F1]|]. split; [exact F2|]. rewrite T. split; [|exact Es].
    unfold root in *. cbn. rewrite m2_map, F3. reflexivity. }
  intros q Q. exact (proj2 (failed_ops e' q R (later_failed e' _ q R F Q))).
Qed.
End Api.
