(** The Action pass computes the values given by [vsem], whatever the table of values
    holds already. *)

From Coq Require Import String Ascii NArith ZArith PArith List FMapPositive Lia Bool.
From Verif Require Import Base Utf8 Utf8Facts PegSyntax Peg PegSpec PegFacts NodeFacts Tone Ast AstInd ModFacts Action ActionSpec.
Import ListNotations.
Open Scope Z_scope.

Lemma wmod_good s w : good (wmod s w).
Proof. destruct s as [[]|]; cbn; try exact I; apply mod_good. Qed.
Lemma nmod_good s n : good (nmod s n).
Proof. destruct s as [[]|]; cbn; try exact I; apply mod_good. Qed.
Lemma opt_word_good o : good (opt_word o).
Proof. destruct o as [[]|]; exact I. Qed.
Lemma opt_node_good o : good (opt_node o).
Proof. destruct o as [[]|]; exact I. Qed.
Lemma end_predication_good p s na : good (end_predication p s na).
Proof.
  unfold end_predication. apply good_bind; [apply nmod_good|intro p'].
  apply good_bind; [apply opt_word_good|intro na']. destruct p'; exact I.
Qed.
Lemma diacritic_good t l : good (diacritic_of t l).
Proof. unfold diacritic_of. destruct (lookup t _); [|exact I]. destruct (slookup l _) as [[|]|]; exact I. Qed.
Lemma add_tone_good d t : good (add_tone d t).
Proof. unfold add_tone. apply good_bind; [apply diacritic_good|intro; exact I]. Qed.

Lemma run_act_good a i j args : good (run_act a i j args).
Proof.
  unfold run_act.
  repeat (first
    [ exact I
    | apply good_bind; [first [apply nmod_good|apply wmod_good|apply opt_word_good|apply opt_node_good
                              |apply end_predication_good|apply diacritic_good|apply add_tone_good]|intro]
    | match goal with |- good (match ?x with _ => _ end) => destruct x end ]).
Qed.

Lemma run_action_good a args i j en : good (run_action a args i j en).
Proof. unfold run_action. destruct (get_labels args en); [apply run_act_good|exact I]. Qed.

Section ActionFacts.

Variable G : positive -> rule.
Variable is_punct : N -> bool.
Variable text : string.
Variable nullable : positive -> bool.
Variable rank : positive -> nat.
Variable maxrank : nat.
Hypothesis wf : forall r, wf_rule G nullable rank maxrank r = true.

Notation sem := (@sem G is_punct text).
Notation star := (@star G is_punct text).
Notation vsem := (vsem G is_punct text).
Notation vstar := (vstar G is_punct text).
Notation L := (String.length text).
Notation cons := (cons G is_punct text).
Notation uses := (uses G is_punct text).

Variable ds : mst.
Hypothesis Hds : cons ds.
Hypothesis Hclosed : closed G is_punct text ds.

(** Everything in the table of values is the value of a successful match. *)
Definition ainv (st : ast_) : Prop :=
  forall r pos id v, m2_get (a_map st) r pos = Some (id, v) ->
    exists p, vsem (ECall r) pos (AOk p (v, [])).

(** An outcome matches a result of [sem]; a panic hides the result. *)
Definition agree {A} (o : aout A) (res : option (nat * list pnode)) : Prop :=
  match o, res with
  | AFail, None => True
  | AOk p _, Some (p', _) => p = p'
  | APanic _, _ => True
  | _, _ => False
  end.

Definition lift (o : aout val) : aout (val * env) :=
  match o with AFail => AFail | APanic q => APanic q | AOk p v => AOk p (v, []) end.

Definition acall_ok (call : positive -> nat -> ast_ -> option (aout val * ast_)) (pos0 k : nat) : Prop :=
  forall r pos st res err, (pos0 <= pos <= L)%nat -> (pos = pos0 -> (rank r < k)%nat) -> has ds r pos ->
    ainv st -> sem (ECall r) pos res err ->
    exists o st', call r pos st = Some (o, st') /\ vsem (ECall r) pos (lift o) /\ agree o res /\ ainv st'.

Lemma term_ok call e pos st res err : terminal e = true -> sem e pos res err ->
  ac is_punct text call e pos st =
  Some (match res with Some (p, _) => AOk p (VStr (slice text pos p), []) | None => AFail end, st).
Proof.
  intros T H. destruct e; try discriminate T; inversion H; subst; cbn [ac]; unfold leaf_ok.
  - unfold has_lit. replace (prefix s (sdrop pos text)) with true; [reflexivity|]. symmetry. apply prefix_app. eauto.
  - unfold has_lit. match goal with X : forall _, _ <> _ |- _ => apply prefix_false in X; rewrite X end. reflexivity.
  - unfold next. match goal with X : decode_rune _ = _ |- _ => rewrite X end. match goal with X : In _ _ |- _ => apply mem_rune_In in X; rewrite X end. reflexivity.
  - unfold next. match goal with X : decode_rune _ = _ |- _ => rewrite X end. match goal with X : ~ In _ _ |- _ => apply mem_rune_false in X; rewrite X end. reflexivity.
  - match goal with X : decode_rune _ = _ |- _ => rename X into E end.
    assert (A : any_ok text pos = true) by (apply (proj2 (any_ok_spec text pos)); rewrite E; assumption). rewrite A. unfold next. rewrite E. reflexivity.
  - match goal with X : decode_rune _ = _ |- _ => rename X into E end.
    assert (A : any_ok text pos = false) by (destruct (any_ok text pos) eqn:A; [apply (proj1 (any_ok_spec text pos)) in A; rewrite E in A; contradiction A; reflexivity|reflexivity]).
    rewrite A. reflexivity.
  - match goal with X : decode_rune _ = _ |- _ => rename X into E end. match goal with X : is_punct _ = _ |- _ => rename X into P end.
    assert (A : any_ok text pos = true) by (apply (proj2 (any_ok_spec text pos)); rewrite E; assumption). rewrite A. unfold next. rewrite E, P. reflexivity.
  - match goal with X : decode_rune _ = _ |- _ => rename X into E end.
    assert (A : any_ok text pos = false) by (destruct (any_ok text pos) eqn:A; [apply (proj1 (any_ok_spec text pos)) in A; rewrite E in A; contradiction A; reflexivity|reflexivity]).
    rewrite A. reflexivity.
  - match goal with X : decode_rune _ = _ |- _ => rename X into E end. match goal with X : is_punct _ = _ |- _ => rename X into P end.
    assert (A : any_ok text pos = true) by (apply (proj2 (any_ok_spec text pos)); rewrite E; assumption). rewrite A. unfold next. rewrite E, P. reflexivity.
Qed.

Notation aloop call e1 :=
  (fix loop (n : nat) (pos : nat) (v : val) (st : ast_) {struct n} : acres :=
     match n with
     | O => None
     | S n' =>
         match ac is_punct text call e1 pos st with
         | Some (AOk p1 (v1, _), st1) => loop n' p1 (vplus v v1) st1
         | Some (AFail, st1) => Some (AOk pos (v, []), st1)
         | x => x
         end
     end).

Ltac fin := do 2 eexists; split; [reflexivity|]; split; [|split; [|eassumption]].

Lemma ac_ok_all call pos0 k : acall_ok call pos0 k ->
  (forall e pos res err, sem e pos res err ->
     forall st, (pos0 <= pos <= L)%nat -> (pos = pos0 -> left_ok nullable rank k e = true) -> plus_ok nullable e = true ->
     (forall r p, uses e pos r p -> has ds r p) -> ainv st ->
     exists o st', ac is_punct text call e pos st = Some (o, st') /\ vsem e pos o /\ agree o res /\ ainv st') /\
  (forall e pos p ks err, star e pos p ks err ->
     forall n v st, (L - pos < n)%nat -> (pos0 < pos <= L)%nat -> plus_ok nullable (EPlus e) = true ->
     (forall r p, uses (EPlus e) pos r p -> has ds r p) -> ainv st ->
     exists o st', aloop call e n pos v st = Some (o, st') /\ vstar e pos v o /\ agree o (Some (p, ks)) /\ ainv st').
Proof.
  intro Hc.
  assert (T : forall e pos res err, terminal e = true -> sem e pos res err -> forall st, ainv st ->
    exists o st', ac is_punct text call e pos st = Some (o, st') /\ vsem e pos o /\ agree o res /\ ainv st').
  { intros e pos res err Ht Hs st Hst. rewrite (term_ok call _ _ st _ _ Ht Hs). fin; destruct res as [[p ks]|]; cbn;
      try econstructor; eauto. }
  apply sem_star_ind.
  1-9: intros; eapply T; [reflexivity|econstructor; eassumption|assumption].
  - intros r pos p kids err Hs _ st Hp Hl _ Hu Hst. cbn [ac]. cbn [left_ok] in Hl.
    destruct (Hc r pos st _ _ Hp (fun Q => proj1 (Nat.ltb_lt _ _) (Hl Q)) (Hu _ _ (UCall _ _ _ _ _)) Hst (SCall _ _ _ _ _ _ _ _ Hs)) as (o & st' & -> & Hv & Ha & H').
    destruct o as [|q|p' v]; cbn [agree lift] in *; try contradiction; fin; cbn; auto.
  - intros r pos err Hs _ st Hp Hl _ Hu Hst. cbn [ac]. cbn [left_ok] in Hl.
    destruct (Hc r pos st _ _ Hp (fun Q => proj1 (Nat.ltb_lt _ _) (Hl Q)) (Hu _ _ (UCall _ _ _ _ _)) Hst (SCallF _ _ _ _ _ _ Hs)) as (o & st' & -> & Hv & Ha & H').
    destruct o as [|q|p' v]; cbn [agree lift] in *; try contradiction; fin; cbn; auto.
  - intros a b pos p1 k1 e1 p2 k2 e2 S1 IH1 S2 IH2 st Hp Hl Hpl Hu Hst. cbn [ac]. cbn [left_ok plus_ok] in Hl, Hpl.
    apply andb_true_iff in Hpl. destruct Hpl as [Hpa Hpb].
    destruct (IH1 st Hp) as (o1 & st1 & -> & V1 & A1 & Hst1); [intro Q; apply Hl, andb_true_iff in Q; tauto|exact Hpa|intros; apply Hu, USeq1; assumption|exact Hst|].
    destruct o1 as [|q1|p1' [v1 en1]]; cbn [agree] in A1; try contradiction; [fin; [apply VSeq1; [exact V1|reflexivity]|exact I]|]. subst p1'.
    destruct (sem_some _ _ _ _ _ _ wf _ _ _ _ _ S1 ltac:(lia)) as [B1 N1].
    destruct (IH2 st1) as (o2 & st2 & -> & V2 & A2 & Hst2); [lia| |exact Hpb|intros; eapply Hu, USeq2; eassumption|exact Hst1|].
    + intro Q. assert (Q1 : pos = pos0) by lia. apply Hl, andb_true_iff in Q1. destruct Q1 as [_ Q1].
      destruct (nul nullable a) eqn:En; [exact Q1|]. specialize (N1 eq_refl). lia.
    + destruct o2 as [|q2|p2' [v2 en2]]; cbn [agree] in A2; try contradiction; fin.
      * eapply VSeq2; [exact V1|exact V2|reflexivity].
      * exact I.
      * eapply VSeq; eassumption.
      * exact A2.
  - intros a b pos e1 S1 IH1 st Hp Hl Hpl Hu Hst. cbn [ac]. cbn [left_ok plus_ok] in Hl, Hpl.
    apply andb_true_iff in Hpl. destruct Hpl as [Hpa Hpb].
    destruct (IH1 st Hp) as (o1 & st1 & -> & V1 & A1 & Hst1); [intro Q; apply Hl, andb_true_iff in Q; tauto|exact Hpa|intros; apply Hu, USeq1; assumption|exact Hst|].
    destruct o1 as [|q1|p1' [v1 en1]]; cbn [agree] in A1; try contradiction; fin; try (apply VSeq1; [exact V1|reflexivity]); exact I.
  - intros a b pos p1 k1 e1 e2 S1 IH1 S2 IH2 st Hp Hl Hpl Hu Hst. cbn [ac]. cbn [left_ok plus_ok] in Hl, Hpl.
    apply andb_true_iff in Hpl. destruct Hpl as [Hpa Hpb].
    destruct (IH1 st Hp) as (o1 & st1 & -> & V1 & A1 & Hst1); [intro Q; apply Hl, andb_true_iff in Q; tauto|exact Hpa|intros; apply Hu, USeq1; assumption|exact Hst|].
    destruct o1 as [|q1|p1' [v1 en1]]; cbn [agree] in A1; try contradiction; [fin; [apply VSeq1; [exact V1|reflexivity]|exact I]|]. subst p1'.
    destruct (sem_some _ _ _ _ _ _ wf _ _ _ _ _ S1 ltac:(lia)) as [B1 N1].
    destruct (IH2 st1) as (o2 & st2 & -> & V2 & A2 & Hst2); [lia| |exact Hpb|intros; eapply Hu, USeq2; eassumption|exact Hst1|].
    + intro Q. assert (Q1 : pos = pos0) by lia. apply Hl, andb_true_iff in Q1. destruct Q1 as [_ Q1].
      destruct (nul nullable a) eqn:En; [exact Q1|]. specialize (N1 eq_refl). lia.
    + destruct o2 as [|q2|p2' [v2 en2]]; cbn [agree] in A2; try contradiction; fin; try exact I;
      eapply VSeq2; [exact V1|exact V2|reflexivity| exact V1|exact V2|reflexivity].
  - intros a b pos p k0 err S1 IH1 st Hp Hl Hpl Hu Hst. cbn [ac]. cbn [left_ok plus_ok] in Hl, Hpl.
    apply andb_true_iff in Hpl. destruct Hpl as [Hpa Hpb].
    destruct (IH1 st Hp) as (o1 & st1 & -> & V1 & A1 & Hst1); [intro Q; apply Hl, andb_true_iff in Q; tauto|exact Hpa|intros; apply Hu, UChoice1; assumption|exact Hst|].
    destruct o1 as [|q1|p1' [v1 en1]]; cbn [agree] in A1; try contradiction; fin; try exact A1; apply VChoice1; try exact V1; discriminate.
  - intros a b pos res e1 e2 S1 IH1 S2 IH2 st Hp Hl Hpl Hu Hst. cbn [ac]. cbn [left_ok plus_ok] in Hl, Hpl.
    apply andb_true_iff in Hpl. destruct Hpl as [Hpa Hpb].
    destruct (IH1 st Hp) as (o1 & st1 & -> & V1 & A1 & Hst1); [intro Q; apply Hl, andb_true_iff in Q; tauto|exact Hpa|intros; apply Hu, UChoice1; assumption|exact Hst|].
    destruct o1 as [|q1|p1' [v1 en1]]; cbn [agree] in A1; try contradiction.
    + destruct (IH2 st1 Hp) as (o2 & st2 & -> & V2 & A2 & Hst2); [intro Q; apply Hl, andb_true_iff in Q; tauto|exact Hpb|intros; eapply Hu, UChoice2; eassumption|exact Hst1|].
      fin; [eapply VChoice2; eassumption|exact A2].
    + fin; [apply VChoice1; [exact V1|discriminate]|exact I].
  - intros e pos p1 k1 e1 p2 k2 e2 S1 IH1 S2 IH2 st Hp Hl Hpl Hu Hst. cbn [ac]. cbn [left_ok] in Hl. assert (Hpl' := Hpl). cbn [plus_ok] in Hpl'.
    apply andb_true_iff in Hpl'. destruct Hpl' as [Hn Hpe]. apply negb_true_iff in Hn.
    destruct (IH1 st Hp Hl Hpe) as (o1 & st1 & -> & V1 & A1 & Hst1); [intros; apply Hu, UPlus1; assumption|exact Hst|].
    destruct o1 as [|q1|p1' [v1 en1]]; cbn [agree] in A1; try contradiction; [fin; [apply VPlus1; [exact V1|reflexivity]|exact I]|]. subst p1'.
    destruct (sem_some _ _ _ _ _ _ wf _ _ _ _ _ S1 ltac:(lia)) as [B1 N1]. specialize (N1 Hn).
    destruct (IH2 (S L) (vplus0 v1) st1) as (o2 & st2 & H2 & V2 & A2 & Hst2); [lia|lia|exact Hpl|intros; eapply Hu, UPlus2; eassumption|exact Hst1|].
    exists o2, st2. split; [exact H2|]. split; [eapply VPlus; eassumption|]. split; [|exact Hst2].
    destruct o2; cbn [agree] in *; assumption.
  - intros e pos err S1 IH1 st Hp Hl Hpl Hu Hst. cbn [ac]. cbn [left_ok plus_ok] in Hl, Hpl.
    apply andb_true_iff in Hpl. destruct Hpl as [Hn Hpe].
    destruct (IH1 st Hp Hl Hpe) as (o1 & st1 & -> & V1 & A1 & Hst1); [intros; apply Hu, UPlus1; assumption|exact Hst|].
    destruct o1 as [|q1|p1' [v1 en1]]; cbn [agree] in A1; try contradiction; fin; try exact I; (apply VPlus1; [exact V1|reflexivity]).
  - intros e pos p k0 err S1 IH1 st Hp Hl Hpl Hu Hst. cbn [ac].
    destruct (IH1 st Hp Hl Hpl) as (o1 & st1 & -> & V1 & A1 & Hst1); [intros; apply Hu, UOpt; assumption|exact Hst|].
    destruct o1 as [|q1|p1' [v1 en1]]; cbn [agree] in A1; try contradiction; fin; try exact A1; econstructor; exact V1.
  - intros e pos err S1 IH1 st Hp Hl Hpl Hu Hst. cbn [ac].
    destruct (IH1 st Hp Hl Hpl) as (o1 & st1 & -> & V1 & A1 & Hst1); [intros; apply Hu, UOpt; assumption|exact Hst|].
    destruct o1 as [|q1|p1' [v1 en1]]; cbn [agree] in A1; try contradiction; fin; try reflexivity; try exact I; econstructor; exact V1.
  - intros e pos p k0 err S1 IH1 st Hp Hl Hpl Hu Hst. cbn [ac].
    destruct (IH1 st Hp Hl Hpl) as (o1 & st1 & -> & V1 & A1 & Hst1); [intros; apply Hu, UAnd; assumption|exact Hst|].
    destruct o1 as [|q1|p1' [v1 en1]]; cbn [agree] in A1; try contradiction; fin; try reflexivity; try exact I;
      first [eapply VAnd; exact V1 | eapply VAndX; [exact V1|reflexivity]].
  - intros e pos err S1 IH1 st Hp Hl Hpl Hu Hst. cbn [ac].
    destruct (IH1 st Hp Hl Hpl) as (o1 & st1 & -> & V1 & A1 & Hst1); [intros; apply Hu, UAnd; assumption|exact Hst|].
    destruct o1 as [|q1|p1' [v1 en1]]; cbn [agree] in A1; try contradiction; fin; try reflexivity; try exact I;
      first [eapply VAnd; exact V1 | eapply VAndX; [exact V1|reflexivity]].
  - intros e pos err S1 IH1 st Hp Hl Hpl Hu Hst. cbn [ac].
    destruct (IH1 st Hp Hl Hpl) as (o1 & st1 & -> & V1 & A1 & Hst1); [intros; apply Hu, UNot; assumption|exact Hst|].
    destruct o1 as [|q1|p1' [v1 en1]]; cbn [agree] in A1; try contradiction; fin; try reflexivity; try exact I; econstructor; exact V1.
  - intros e pos p k0 err S1 IH1 st Hp Hl Hpl Hu Hst. cbn [ac].
    destruct (IH1 st Hp Hl Hpl) as (o1 & st1 & -> & V1 & A1 & Hst1); [intros; apply Hu, UNot; assumption|exact Hst|].
    destruct o1 as [|q1|p1' [v1 en1]]; cbn [agree] in A1; try contradiction; fin; try reflexivity; try exact I; econstructor; exact V1.
  - intros e pos p k0 err S1 IH1 st Hp Hl Hpl Hu Hst. cbn [ac].
    destruct (IH1 st Hp Hl Hpl) as (o1 & st1 & -> & V1 & A1 & Hst1); [intros; apply Hu, USub; assumption|exact Hst|].
    fin; [apply VSub; exact V1|]. destruct o1; exact A1.
  - intros e pos err S1 IH1 st Hp Hl Hpl Hu Hst. cbn [ac].
    destruct (IH1 st Hp Hl Hpl) as (o1 & st1 & -> & V1 & A1 & Hst1); [intros; apply Hu, USub; assumption|exact Hst|].
    fin; [apply VSub; exact V1|]. destruct o1; exact A1.
  - intros l e pos res err S1 IH1 st Hp Hl Hpl Hu Hst. cbn [ac].
    destruct (IH1 st Hp Hl Hpl) as (o1 & st1 & -> & V1 & A1 & Hst1); [intros; apply Hu, ULabel; assumption|exact Hst|].
    destruct o1 as [|q1|p1' [v1 en1]]; fin; try exact A1; first [eapply VLabel; exact V1 | eapply VLabelX; [exact V1|reflexivity]].
  - intros a args e pos res err S1 IH1 st Hp Hl Hpl Hu Hst. cbn [ac].
    destruct (IH1 st Hp Hl Hpl) as (o1 & st1 & -> & V1 & A1 & Hst1); [intros; apply Hu, UAction; assumption|exact Hst|].
    destruct o1 as [|q1|p1' [v1 en1]]; try (fin; try exact A1; eapply VActX; [exact V1|reflexivity]).
    pose proof (run_action_good a args pos p1' en1) as Hg.
    destruct (run_action a args pos p1' en1) as [v'|q|] eqn:Er; [| |contradiction]; fin; try exact A1; try exact I.
    + eapply VAct; eassumption.
    + eapply VActP; eassumption.
  - intros e pos err S1 IH1 n v st Hn Hp Hpl Hu Hst. destruct n as [|n]; [lia|].
    assert (Hpl' := Hpl). cbn [plus_ok] in Hpl'. apply andb_true_iff in Hpl'. destruct Hpl' as [_ Hpe].
    destruct (IH1 st ltac:(lia)) as (o1 & st1 & -> & V1 & A1 & Hst1); [intro; lia|exact Hpe|intros; apply Hu, UPlus1; assumption|exact Hst|].
    destruct o1 as [|q1|p1' [v1 en1]]; cbn [agree] in A1; try contradiction; fin; try reflexivity; try exact I; econstructor; exact V1.
  - intros e pos p1 k1 e1 p2 k2 e2 S1 IH1 S2 IH2 n v st Hn Hp Hpl Hu Hst. destruct n as [|n]; [lia|].
    assert (Hpl' := Hpl). cbn [plus_ok] in Hpl'. apply andb_true_iff in Hpl'. destruct Hpl' as [Hnn Hpe]. apply negb_true_iff in Hnn.
    destruct (IH1 st ltac:(lia)) as (o1 & st1 & -> & V1 & A1 & Hst1); [intro; lia|exact Hpe|intros; apply Hu, UPlus1; assumption|exact Hst|].
    destruct o1 as [|q1|p1' [v1 en1]]; cbn [agree] in A1; try contradiction; [fin; [apply VStarP; exact V1|exact I]|]. subst p1'.
    destruct (sem_some _ _ _ _ _ _ wf _ _ _ _ _ S1 ltac:(lia)) as [B1 N1]. specialize (N1 Hnn).
    destruct (IH2 n (vplus v v1) st1) as (o2 & st2 & H2 & V2 & A2 & Hst2); [lia|lia|exact Hpl|intros; eapply Hu, UPlus2; eassumption|exact Hst1|].
    exists o2, st2. split; [exact H2|]. split; [eapply VStarStep; eassumption|]. split; [|exact Hst2].
    destruct o2; cbn [agree] in *; assumption.
Qed.

Lemma vsem_call_shape r pos p v : vsem (ECall r) pos (AOk p v) -> exists k err, sem (ECall r) pos (Some (p, k)) err.
Proof. intro H. inversion H; subst; [discriminate|eauto]. Qed.

Lemma action_ok fuel : forall r pos st res err,
  (depth text rank maxrank r pos <= fuel)%nat -> (pos <= L)%nat -> has ds r pos -> ainv st ->
  sem (ECall r) pos res err ->
  exists o st', action_of G is_punct text ds fuel r pos st = Some (o, st') /\
    vsem (ECall r) pos (lift o) /\ agree o res /\ ainv st'.
Proof.
  induction fuel as [|fuel IH]; intros r pos st res err Hd Hp Hh Hst Hs; [unfold depth in Hd; lia|].
  cbn [action_of]. rewrite (has_delta _ _ _ _ Hds _ _ _ _ Hh Hs Hp).
  destruct res as [[p ks]|].
  - cbn [enc1]. destruct (sem_some _ _ _ _ _ _ wf _ _ _ _ _ Hs Hp) as [B1 _].
    rewrite (proj2 (Z.ltb_ge _ 0)) by lia.
    destruct (m2_get (a_map st) r pos) as [[id v]|] eqn:En.
    + destruct (Hst _ _ _ _ En) as (p' & Hv). destruct (vsem_call_shape _ _ _ _ Hv) as (k' & err' & Hs').
      pose proof (sem_same _ _ _ _ _ _ _ _ _ Hs Hs') as Eq. injection Eq as <- <-.
      replace (Z.to_nat (Z.of_nat pos + (Z.of_nat p - Z.of_nat pos + 1 - 1))) with p by lia.
      do 2 eexists. split; [reflexivity|]. split; [exact Hv|]. split; [reflexivity|exact Hst].
    + assert (Hbody : exists kids err', sem (r_body (G r)) pos (Some (p, kids)) err') by (inversion Hs; subst; eauto).
      destruct Hbody as (kids & err' & H0).
      destruct (proj1 (ac_ok_all (action_of G is_punct text ds fuel) pos (rank r) ltac:(
          intros r' pos' st' res2 err2 Hp' Hr' Hh' Hst' Hs2; apply (IH r' pos' st' res2 err2); try assumption; [|lia];
          pose proof (depth_step _ _ _ _ _ wf r r' pos pos' Hp' Hr'); lia)) _ _ _ _ H0 st ltac:(lia)) as (o & st1 & -> & V1 & A1 & Hst1).
      * intros _. eapply wf_left. exact wf.
      * eapply wf_plus. exact wf.
      * intros r' p' U. eapply Hclosed; eassumption.
      * exact Hst.
      * destruct o as [|q|p' [v en]]; cbn [agree] in A1; try contradiction.
        -- do 2 eexists. split; [reflexivity|]. split; [eapply VCallP; eassumption|]. split; [exact I|exact Hst1].
        -- subst p'. assert (V : vsem (ECall r) pos (AOk p (v, []))) by (eapply VCall; eassumption).
           do 2 eexists. split; [reflexivity|]. split; [exact V|]. split; [reflexivity|].
           intros r' pos' id' v' Hn'. cbn [a_map] in Hn'. destruct (key_dec r r' pos pos') as [E|N].
           ++ injection E as -> ->. rewrite m2_gss in Hn'. injection Hn' as <- <-. eauto.
           ++ rewrite m2_gso in Hn' by exact N. eapply Hst1. exact Hn'.
  - cbn [enc1]. cbn. do 2 eexists. split; [reflexivity|]. split; [eapply VCallF; exact Hs|]. split; [exact I|exact Hst].
Qed.

(** ** Determinism *)

Ltac use_vih :=
  repeat match goal with
  | IH : forall o', ActionSpec.vsem G is_punct text ?e ?p o' -> _ = o',
    H : ActionSpec.vsem G is_punct text ?e ?p ?o |- _ =>
      let H1 := fresh in pose proof (IH _ H) as H1; clear H;
      try discriminate H1; try (injection H1 as H1); subst
  | IH : forall o', ActionSpec.vstar G is_punct text ?e ?p ?v o' -> _ = o',
    H : ActionSpec.vstar G is_punct text ?e ?p ?v ?o |- _ =>
      let H1 := fresh in pose proof (IH _ H) as H1; clear H; subst
  | H1 : PegSpec.sem ?e ?p ?a ?b, H2 : PegSpec.sem ?e ?p ?c ?d |- _ =>
      let H3 := fresh in let H4 := fresh in
      destruct (sem_det _ _ _ _ _ _ _ _ _ H1 H2) as [H3 H4]; clear H2;
      try discriminate H3; try (injection H3 as H3); subst
  end.

Lemma vsem_det_all :
  (forall e pos o, vsem e pos o -> forall o', vsem e pos o' -> o = o') /\
  (forall e pos v o, vstar e pos v o -> forall o', vstar e pos v o' -> o = o').
Proof.
  apply vsem_star_ind; intros;
  match goal with
  | H : ActionSpec.vsem _ _ _ _ _ ?x |- _ = ?x => inversion H; clear H; subst
  | H : ActionSpec.vstar _ _ _ _ _ _ ?x |- _ = ?x => inversion H; clear H; subst
  end; try (match goal with H : terminal _ = true |- _ => discriminate H end);
  use_vih; try reflexivity; try congruence; try discriminate; try (match goal with H : stuck _ = true |- _ => discriminate H end).
Qed.

Lemma vsem_det e pos o o' : vsem e pos o -> vsem e pos o' -> o = o'.
Proof. intros. eapply (proj1 vsem_det_all); eassumption. Qed.

End ActionFacts.
