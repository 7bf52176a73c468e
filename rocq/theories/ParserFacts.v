(** The operations of a Parser, from any state that earlier operations can leave. *)

From Coq Require Import String Ascii NArith ZArith PArith List FMapPositive Lia Bool.
From Verif Require Import Base Utf8 Utf8Facts Loc LocSpec LocFacts PegSyntax Grammar Peg PegToaq PegSpec PegFacts
  NodeFacts FailFacts PegToaqFacts Ast AstInd ModFacts Action ActionSpec ActionFacts Parser.
Import ListNotations.
Open Scope Z_scope.

Section ParserFacts.

Variable is_punct : N -> bool.
Variable text : string.

Notation sem := (@PegSpec.sem toaq is_punct text).
Notation vsem := (vsem toaq is_punct text).
Notation L := (String.length text).
Notation cons := (cons toaq is_punct text).
Notation closed := (closed toaq is_punct text).
Notation ninv := (ninv toaq is_punct text).
Notation ainv := (ainv toaq is_punct text).

Record pinv (p : parser) : Prop := {
  pi_text : q_text p = text;
  pi_cons : cons (q_m p);
  pi_closed : closed (q_m p);
  pi_fail : exists h, finv text h (q_fail p);
  pi_node : ninv (q_m p) (q_node p);
  pi_act : ainv (q_act p) }.

Lemma ninv_ext m m' n : ext m m' -> ninv m n -> ninv m' n.
Proof. intros E H r pos x Hx. destruct (H r pos x Hx) as (A & B). split; [apply E; exact A|exact B]. Qed.

Lemma finv0 : finv text (fun _ => None) fst0.
Proof. split; [intros i H; contradiction H; reflexivity|]. intros r pos f H. cbn in H. rewrite m2_get_empty in H. discriminate. Qed.

Lemma ainv_map a a' : a_map a = a_map a' -> ainv a -> ainv a'.
Proof. intros E H r pos id v Hg. rewrite <- E in Hg. eapply H. exact Hg. Qed.

Lemma ainv_empty n hs : ainv (Ast m2_empty n hs).
Proof. intros r pos id v H. cbn in H. rewrite m2_get_empty in H. discriminate. Qed.

Lemma pinv_new : pinv (new_parser text).
Proof.
  constructor; cbn.
  - reflexivity.
  - apply cons0.
  - apply closed0.
  - eexists. apply finv0.
  - apply ninv0.
  - apply ainv_empty.
Qed.

(** Errors are built from the tree of failures. *)
Definition good_error (e : perror) : Prop :=
  0 <= pe_offset e <= Z.of_nat L /\
  location text (Z.to_nat (pe_offset e)) = Some (pe_loc e) /\
  leaf_fails (pe_tree e) <> [] /\
  forall l, In l (leaf_fails (pe_tree e)) -> Z.of_nat (f_pos l) = pe_offset e.

Lemma simple_error_ok h f : consistent h f -> pos_ok L f -> exists e, simple_error text f = Ok e /\ good_error e.
Proof.
  intros Hc Hp. destruct (leaf_fails_ok h f Hc) as [Hn Hl]. unfold simple_error.
  destruct (leaf_fails f) as [|l ls] eqn:E; [congruence|].
  destruct (byte_offset_bounds _ _ Hp) as [B1 B2].
  assert (Ho := Hl l (or_introl eq_refl)). destruct Ho as [_ Ho].
  destruct (location text (f_pos l)) as [lc|] eqn:El.
  - eexists. split; [reflexivity|]. unfold good_error, pe_offset. cbn [pe_tree pe_loc]. split; [lia|].
    split; [rewrite <- Ho, Nat2Z.id; exact El|]. rewrite E. split; [congruence|]. intros x Hx. apply Hl. exact Hx.
  - exfalso. destruct (location_total text (f_pos l)) as [x Hx]; [lia|congruence].
Qed.

Lemma parse_ok r start p : pinv p -> (start <= L)%nat ->
  exists res err p1, sem (ECall r) start res err /\
    parse is_punct r start p = (match res with
      | Some _ => Ok None
      | None => fst (parse is_punct r start p) end, p1) /\
    (res = None -> exists e, fst (parse is_punct r start p) = Ok (Some e) /\ good_error e) /\
    pinv p1 /\ has (q_m p1) r start /\ q_act p1 = q_act p /\ q_node p1 = q_node p.
Proof.
  intros [Ht Hcons Hclos [h Hf] Hn Ha] Hs. unfold parse. rewrite Ht.
  rewrite (proj2 (Nat.ltb_ge _ _)) by lia.
  destruct (accepts toaq is_punct text (enough text start r) r start (q_m p)) as [[[dp de] m1]|] eqn:E.
  2: { exfalso. revert E. eapply accepts_total; [exact toaq_wf|apply le_n|exact Hs|exact Hcons]. }
  destruct (accepts_sound _ _ _ _ _ _ toaq_wf _ _ _ _ _ _ _ E Hs Hcons) as (Hcons1 & res & err & Hsem & Hdp & Hde).
  destruct (accepts_closed _ _ _ _ _ _ toaq_wf _ _ _ _ _ _ _ E Hs Hcons Hclos) as (Hclos1 & Hext & Hhas).
  exists res, err. destruct res as [[p' k]|].
  - assert (B : (start <= p')%nat) by (destruct (sem_some _ _ _ _ _ _ toaq_wf _ _ _ _ _ Hsem Hs) as [B _]; lia).
    cbn [enc] in Hdp. rewrite (proj2 (Z.leb_le 0 dp)) by lia.
    eexists. split; [exact Hsem|]. split; [reflexivity|]. split; [discriminate|]. cbn. split; [|auto].
    constructor; cbn; eauto using ninv_ext.
  - cbn [enc] in Hdp. subst dp. cbn [Z.leb Z.compare].
    destruct (fail_ok _ _ _ _ _ _ toaq_wf m1 Hcons1 de (enough text 0 r_full_text) r_full_text 0%nat (q_fail p) h (le_n _) ltac:(lia) Hf)
      as (o & f & fs & h' & Ef & (Hx & Hfinv & _) & Hc & Hp & _).
    rewrite Ef. destruct (simple_error_ok _ _ Hc Hp) as (e & -> & He).
    eexists. split; [exact Hsem|]. split; [reflexivity|]. split; [intros _; exists e; split; [reflexivity|exact He]|]. cbn. split; [|auto].
    constructor; cbn; eauto using ninv_ext.
Qed.

Lemma parse_beyond r start p : pinv p -> (L < start)%nat -> parse is_punct r start p = (runtime_panic, p).
Proof. intros H Hs. unfold parse. rewrite (pi_text _ H). rewrite (proj2 (Nat.ltb_lt _ _)) by lia. reflexivity. Qed.

(** ** The three operations *)

Inductive tree_spec : res (outcome (option pnode)) -> Prop :=
  | TreeOk p n err : sem (ECall r_full_text) 0%nat (Some (p, [n])) err -> tree_spec (Ok (Got (Some n)))
  | TreeErr e err : sem (ECall r_full_text) 0%nat None err -> good_error e -> tree_spec (Ok (Err e)).

Lemma tree_ok p : pinv p -> tree_spec (fst (tree is_punct p)) /\ pinv (snd (tree is_punct p)).
Proof.
  intro H. destruct (parse_ok r_full_text 0 p H ltac:(lia)) as (res & err & p1 & Hs & Hp & He & Hi & Hh & _).
  unfold tree. rewrite Hp. destruct res as [[q k]|].
  - rewrite (pi_text _ Hi).
    destruct (node_ok _ _ _ _ _ _ toaq_wf (q_m p1) (pi_cons _ Hi) (pi_closed _ Hi) _ _ _ (q_node p1) _ _ (le_n (enough text 0 r_full_text)) ltac:(lia) Hh (pi_node _ Hi) Hs)
      as (st' & E & _).
    rewrite E. destruct (sem_call_shape _ _ _ _ _ _ _ _ Hs) as (n & ->). cbn [kid_of fst snd].
    split; [econstructor; exact Hs|]. destruct Hi. constructor; cbn; auto. apply ninv0.
  - destruct (He eq_refl) as (e & Ee & Ge). rewrite Ee. cbn [fst snd]. split; [|exact Hi].
    econstructor; eassumption.
Qed.

Inductive text_spec : res (outcome (option node)) -> Prop :=
  | TextOk p n k err :
      sem (ECall r_full_text) 0%nat (Some (p, k)) err ->
      vsem (ECall r_full_text) 0%nat (AOk p (VNode n, [])) -> text_spec (Ok (Got (Some n)))
  | TextPanic q p k err :
      sem (ECall r_full_text) 0%nat (Some (p, k)) err ->
      vsem (ECall r_full_text) 0%nat (APanic q) -> text_spec (Panic q)
  | TextIll p k err v :
      sem (ECall r_full_text) 0%nat (Some (p, k)) err ->
      vsem (ECall r_full_text) 0%nat (AOk p (v, [])) -> (forall n, v <> VNode n) ->
      text_spec (Panic (PString "ill-typed action"))
  | TextErr e err : sem (ECall r_full_text) 0%nat None err -> good_error e -> text_spec (Ok (Err e)).

Lemma text_ok p : pinv p -> text_spec (fst (text_of is_punct p)) /\ pinv (snd (text_of is_punct p)).
Proof.
  intro H. destruct (parse_ok r_full_text 0 p H ltac:(lia)) as (res & err & p1 & Hs & Hp & He & Hi & Hh & _).
  unfold text_of. rewrite Hp. destruct res as [[q k]|].
  - rewrite (pi_text _ Hi).
    destruct (action_ok _ _ _ _ _ _ toaq_wf (q_m p1) (pi_cons _ Hi) (pi_closed _ Hi) _ _ _ (start_act (q_act p1)) _ _ (le_n (enough text 0 r_full_text)) ltac:(lia) Hh
        ltac:(eapply ainv_map; [|exact (pi_act _ Hi)]; reflexivity) Hs)
      as (o & st' & E & V & A & Hst').
    rewrite E. destruct o as [|pv|q' v]; cbn [agree lift] in A, V; try contradiction.
    + cbn [fst snd]. split; [eapply TextPanic; eassumption|]. destruct Hi. constructor; cbn; auto.
    + subst q'. destruct v; cbn [fst snd];
        (split; [first [eapply TextOk; eassumption | eapply TextIll; [exact Hs|exact V|discriminate]]
                |destruct Hi; constructor; cbn; auto using ainv_empty]).
  - destruct (He eq_refl) as (e & Ee & Ge). rewrite Ee. cbn [fst snd]. split; [|exact Hi].
    eapply TextErr; eassumption.
Qed.

Inductive word_spec (offs : nat) : res (outcome (word * Z)) -> Prop :=
  | WordBeyond : (L < offs)%nat -> word_spec offs (Panic PRuntime)
  | WordOk p w k err : (offs <= L)%nat ->
      sem (ECall r_word) offs (Some (p, k)) err ->
      vsem (ECall r_word) offs (AOk p (VWord w, [])) -> word_spec offs (Ok (Got (w, Z.of_nat p - Z.of_nat offs)))
  | WordPanic q p k err : (offs <= L)%nat ->
      sem (ECall r_word) offs (Some (p, k)) err ->
      vsem (ECall r_word) offs (APanic q) -> word_spec offs (Panic q)
  | WordIll p k err v : (offs <= L)%nat ->
      sem (ECall r_word) offs (Some (p, k)) err ->
      vsem (ECall r_word) offs (AOk p (v, [])) -> (forall w, v <> VWord w) ->
      word_spec offs (Panic (PString "ill-typed action"))
  | WordErr e err : (offs <= L)%nat ->
      sem (ECall r_word) offs None err -> good_error e -> word_spec offs (Ok (Err e)).

Lemma word_ok offs p : pinv p -> word_spec offs (fst (word_at is_punct offs p)) /\ pinv (snd (word_at is_punct offs p)).
Proof.
  intro H. destruct (Nat.lt_ge_cases L offs) as [Hb|Hb].
  { unfold word_at. rewrite (parse_beyond _ _ _ H Hb). cbn. split; [apply WordBeyond; exact Hb|exact H]. }
  destruct (parse_ok r_word offs p H Hb) as (res & err & p1 & Hs & Hp & He & Hi & Hh & _).
  unfold word_at. rewrite Hp. destruct res as [[q k]|].
  - rewrite (pi_text _ Hi).
    destruct (action_ok _ _ _ _ _ _ toaq_wf (q_m p1) (pi_cons _ Hi) (pi_closed _ Hi) _ _ _ (start_act (q_act p1)) _ _ (le_n (enough text offs r_word)) Hb Hh
        ltac:(eapply ainv_map; [|exact (pi_act _ Hi)]; reflexivity) Hs)
      as (o & st' & E & V & A & Hst').
    rewrite E. destruct o as [|pv|q' v]; cbn [agree lift] in A, V; try contradiction.
    + cbn [fst snd]. split; [eapply WordPanic; eassumption|]. destruct Hi. constructor; cbn; auto.
    + subst q'. destruct v; cbn [fst snd];
        (split; [first [eapply WordOk; eassumption | eapply WordIll; [exact Hb|exact Hs|exact V|discriminate]]
                |destruct Hi; constructor; cbn; auto using ninv0]).
  - destruct (He eq_refl) as (e & Ee & Ge). rewrite Ee. cbn [fst snd]. split; [|exact Hi].
    eapply WordErr; eassumption.
Qed.

Lemma reach_pinv p : reach is_punct text p -> pinv p.
Proof.
  induction 1.
  - apply pinv_new.
  - apply tree_ok. assumption.
  - apply word_ok. assumption.
  - apply text_ok. assumption.
Qed.

End ParserFacts.
