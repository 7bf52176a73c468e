(** The sentences of a discourse, and the bindings around them. *)

From Coq Require Import String NArith List Bool Arith Lia.
From Verif Require Import Base PegSyntax Ast AstSorts Logic LogicWords LogicSpec ScopeSpec Interp OrderFacts SeqFacts TermFacts ScopeFacts ScopeInterp ScopeRun Meaning MeaningFacts MeaningNames MeaningRun MeaningStep MeaningBody MeaningArgs MeaningSpecs.
Import ListNotations.
Open Scope string_scope.
Open Scope list_scope.
Open Scope nat_scope.

Section End_.
Variables (U : unicode) (ol : list (N * N)) (vf : nat).
Notation fo := (first_order U ol).

Lemma item_sentence n : is_sentence n = true -> sentence_item n.
Proof. intros H. destruct n; try discriminate; [left; eauto|]. destruct k; try discriminate. right. eauto 6. Qed.
Lemma item_fragment n : is_fragment n = true -> ~ sentence_item n.
Proof. intros H [(j & s & d & ->)|(f & m & w & l & r & ->)]; discriminate. Qed.

Lemma items_read fuel : forall d o s o' s' t oF, all_items U ol vf fuel d o s = Ok (o', s') -> fo_items U ol d ->
  good s -> ext st0 s -> (forall x, o = Some x -> made st0 s Any x) -> ctx (Context [] None) s -> said t s -> optional (rform (s_heap s)) o oF ->
  exists oF' t', items U ol t oF d oF' t' /\ optional (rform (s_heap s')) o' oF' /\ said t' s'.
Proof.
  induction d as [|n d IHd]; intros o s o' s' t oF H Fo G X M C S R; cbn [all_items] in H.
  - minv H. subst. exists oF, t. split; [constructor|auto].
  - assert (Fo' : fo_items U ol d) by (intros m I; apply Fo; right; exact I).
    destruct (is_fragment n) eqn:Fn.
    { destruct (IHd _ _ _ _ _ _ H Fo' G X M C S R) as (oF' & t' & A & B & D). exists oF', t'. split; [constructor; [apply item_fragment, Fn|exact A]|auto]. }
    destruct (is_sentence n) eqn:Sn; [|discriminate]. apply item_sentence in Sn.
    assert (Fn' : fo n = true) by (apply Fo; [left; reflexivity|exact Sn]).
    minv H. destruct (p_sent _ _ _ (run_specs U ol vf fuel) _ _ _ _ Any E) as (Mx & Vx); [exact Fn'|exact G|apply any_env|apply any_hoa|].
    destruct (r_sent _ _ _ (run_means U ol vf fuel) _ _ _ _ _ E Fn' G C S) as (F & t1 & A1 & R1 & S1).
    assert (C1 := ctx_ext _ _ _ C (m_ext _ _ _ _ Mx) Vx). inversion R as [K1 K2|x0 G0 R0 K1 K2]; subst.
    + destruct (IHd _ _ _ _ t1 (Some F) H Fo' (m_good _ _ _ _ Mx) (ext_trans _ _ _ G X (m_ext _ _ _ _ Mx))) as (oF' & t' & A & B & D); [|exact C1|exact S1|constructor; exact R1|].
      { intros z Z. injection Z as <-. exact (made_earlier _ _ _ _ _ G X Mx). }
      exists oF', t'. split; [econstructor; eassumption|auto].
    + minv H. specialize (M _ eq_refl). destruct (conn2 _ _ _ _ _ _ _ _ _ M Mx E0) as (Mz & Vz). destruct (conn_read _ _ _ _ _ _ _ _ _ _ E0 R0 (m_ext _ _ _ _ Mx) R1 S1) as (Rz & Sz).
      assert (Cz : ctx (Context [] None) s1).
      { pose proof E0 as E0'. apply alloc_ok in E0'. destruct E0' as [-> ->]. eapply ctx_grows; [exact C1|apply grows_snoc|reflexivity|reflexivity]. }
      destruct (IHd _ _ _ _ t1 (Some (Both KAnd G0 F)) H Fo' (m_good _ _ _ _ Mz) (m_ext _ _ _ _ Mz)) as (oF' & t' & A & B & D); [|exact Cz|exact Sz|constructor; exact Rz|].
      { intros z Z. injection Z as <-. exact Mz. }
      exists oF', t'. split; [econstructor; eassumption|auto].
Qed.

Definition outer_read (h : heap) (o : nat * formula) (b : ref) : Prop :=
  exists rs, nth_error h b = Some (CBinding QThe (fst o) false (Some rs) None) /\ rform h rs (snd o).
Definition around (l : list (nat * formula)) (G : formula) : formula :=
  fold_right (fun b G => Quantified QThe (fst b) false (Some (snd b)) G) G l.

Lemma bind_all_read : forall outer l r G s o s' k, bind_all vf (rev l) (Some r) s = Ok (o, s') -> fin (s_heap s) l r ->
  Forall2 (outer_read (s_heap s)) outer l -> rform (s_heap s) r G -> nums (s_heap s) k ->
  exists r', o = Some r' /\ rform (s_heap s') r' (around outer G) /\ nums (s_heap s') k.
Proof.
  intros outer. induction outer as [|[n R] outer IHo] using rev_ind; intros l r G s o s' k H K Ou Rr Nu.
  - inversion Ou; subst. cbn in H. minv H. subst. exists r. auto.
  - apply Forall2_app_inv_l in Ou. destruct Ou as (l1 & l2 & O1 & O2 & ->). inversion O2 as [|? b ? l3 Ob O3]; subst. inversion O3; subst.
    rewrite rev_unit in H. cbn [bind_all] in H. minv H. destruct (bind_one_fin _ _ _ _ _ _ _ E K) as (-> & K'). destruct Ob as (rs & B & Rs). cbn [fst snd] in *.
    destruct (n_the _ _ _ K l1 b [] eq_refl) as (Nb & Or' & _).
    unfold bind_scope in E. destruct vf as [|vf'] eqn:Ev; [discriminate|]. cbn [bind_scope_fuel] in E. minv E. apply get_binding_ok in E0. destruct E0 as [-> B0].
    rewrite B in B0. injection B0 as Hq Hn Hf Hr Hs. rewrite <- Hs in E. minv E. minv E. clear E. subst s0.
    apply set_scope_ok in E0. destruct E0 as (q1 & n1 & f1 & r1 & c1 & B1 & ->). rewrite B in B1. injection B1 as <- <- <- <- <-.
    assert (Fp : forall x F, rform (s_heap s) x F -> rform (s_heap (put s b (CBinding QThe n false (Some rs) (Some r)))) x F).
    { intros x F Rx. eapply form_put; [exact B|exact Or'|exact Rx|]. eapply not_open; eassumption. }
    destruct (IHo l1 b (Quantified QThe n false (Some R) G) _ _ _ k H K') as (r' & -> & Rf & Nf).
    + clear - O1 Nb Fp B. induction O1 as [|o y l m (r2 & E & F) O IH]; constructor; [|apply IH; intros I; apply Nb; right; exact I].
      exists r2. split; [|apply Fp, F]. cbn [put with_heap s_heap]. rewrite set_nth_other by (intros ->; apply Nb; left; reflexivity). exact E.
    + econstructor 4; [apply set_nth_same; eapply nth_lt, B|apply Fp, Rs|apply Fp, Rr].
    + eapply nums_put; eassumption.
    + exists r'. split; [reflexivity|]. split; [|exact Nf]. unfold around in *. rewrite fold_right_app. exact Rf.
Qed.

Lemma said0 : said (State 0 [] []) st0.
Proof.
  split; cbn; [reflexivity| |constructor|constructor|intros k x []].
  split; [intros d m|intros d d' m|intros [|r] m f E; discriminate|intros [|r] r' m f f' E; discriminate]; intros (q & f & rs & sc & E); destruct d; discriminate.
Qed.

(** The statement that discourse makes. *)
Theorem discourse_means fuel d r s : discourse U ol vf fuel d st0 = Ok (Some r, s) -> fo_items U ol d ->
  exists G t k, items U ol (State 0 [] []) None d (Some G) t /\ rform (s_heap s) r (around (t_outer t) G) /\ nums (s_heap s) k.
Proof.
  unfold discourse. intros H Fo. minv H. minv H. injection E0 as <- <-. destruct a as [r0|].
  - assert (M := items_made _ _ _ _ _ _ _ _ _ E Fo good0 (ext_refl _ good0) eq_refl ltac:(discriminate)).
    destruct (items_read _ _ _ _ _ _ _ None E Fo good0 (ext_refl _ good0) ltac:(discriminate) ltac:(split; constructor) said0 ltac:(constructor)) as (oF & t & It & Op & S).
    inversion Op as [|? G Rg K1 K2]; subst. destruct (bind_all_read (t_outer t) _ _ G _ _ _ (s_n s0) H) as (r' & K & Rf & Nf).
    + destruct M as [[W T _ _] X N St' O Nt F]. split; try assumption. intros b D. destruct (F _ D) as [[]|K]. exact K.
    + exact (d_outer _ _ S).
    + exact Rg.
    + exact (d_nums _ _ S).
    + injection K as ->. eauto 8.
  - destruct (items_none _ _ _ _ _ _ _ _ E) as (_ & -> & _). cbn in H. minv H. discriminate.
Qed.
End End_.
