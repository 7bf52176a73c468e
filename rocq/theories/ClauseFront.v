(** The interpreter computes the meaning of clauses: the terms before a statement, and all
    methods together. *)

From Coq Require Import String NArith List Bool Arith Lia.
From Verif Require Import Base PegSyntax Ast AstSorts Logic LogicWords LogicSpec ScopeSpec Interp OrderFacts SeqFacts TermFacts ScopeFacts ScopeInterp ScopeRun Meaning MeaningFacts Clauses ClauseHeap ClauseRun ClauseStep ClauseBind ClauseSpecs ClauseArgs.
From Verif Require MeaningStep MeaningArgs.
Import ListNotations.
Open Scope string_scope.
Open Scope list_scope.
Open Scope nat_scope.

Lemma dida_plain g t s W s1 t1 W1 x b v fo g' : dida g t s W s1 t1 W1 None x b v false g' -> dida g t s W s1 t1 W1 None x b v fo g'.
Proof. intros (X & S & B & Rest). exists X. split; [exact S|]. split; [inversion B; constructor|exact Rest]. Qed.
Lemma did_more g t s W s1 t1 W1 x F Y s2 t2 W2 : did g t s W s1 t1 W1 x F -> steps s1 t1 W1 Y s2 t2 W2 -> did g t s W s2 t2 W2 x F.
Proof.
  intros (X & S & A & Fi) S2. exists X. split; [eapply steps_sub; [exact (z_trans S S2)|]; intros i; rewrite cnt_app; lia|]. split; [eapply grows_f; [exact (z_grows S2)|exact A]|].
  eapply fine_next; [exact (z_names _ _ _ _ _ _ _ S2)|exact Fi].
Qed.
Lemma content_steps g t s W s1 t1 W1 sub F q s2 b a u s3 : did g t s W s1 t1 W1 sub F -> new_binding q false s1 = Ok (b, a, s2) -> restrict_content b a sub s2 = Ok (u, s3) ->
  steps s1 t1 W1 [b] s3 (up_to t1 (S (S (n_next t1)))) W1.
Proof.
  intros (X & S0 & A & Fi) H1 H2. destruct (steps_binding _ _ _ _ _ _ _ _ H1 (z_now S0)) as (S2 & N2 & T2 & V2). assert (G2 := z_grows S2).
  unfold restrict_content in H2. minv H2. minv H2.
  destruct (content_at _ _ _ _ _ _ _ _ E (z_now S2) (grows_f _ _ _ _ _ G2 A)) as (N & X' & S3 & A3 & C3 & V3).
  destruct (steps_alloc _ _ _ _ _ _ E0 eq_refl (z_now S3)) as (S4 & N4 & V4).
  apply set_restriction_ok in H2. destruct H2 as (q1 & n1 & f1 & rs1 & sc1 & B1 & ->).
  destruct (steps_put _ _ _ _ _ _ _ _ _ _ _ _ _ q1 f1 (Some a1) sc1 (z_trans (z_trans S2 S3) S4) ltac:(left; reflexivity) B1) as (S5 & _).
  eapply steps_sub; [exact S5|]. intros i. count i.
Qed.

Section Front.
Variables (U : unicode) (ol : list (N * N)) (vf : nat).
Notation cov := (covered U ol).
Variable self : forall A, call A -> Interp.M A.
Hypothesis IH : cspecs U ol self.

Ltac lift_conn E := unfold lift in E; match type of E with context [connector U ?r] => destruct (connector U r) as [?c| |] eqn:?Co; try discriminate; apply connects_connector in Co; injection E as <- <- end.

Lemma args_snoc h a ta x v k : rargs h a ta -> rthing h x v -> rargs h (a ++ [(x, k)]) (ta ++ [(v, k)]).
Proof. intros R T. apply Forall2_app; [exact R|]. constructor; [split; [exact T|reflexivity]|constructor]. Qed.
Lemma in_snoc g t ta v k : args_in g t ta -> var_in g t v -> args_in g t (ta ++ [(v, k)]).
Proof. intros A I w j J. apply in_app_or in J. destruct J as [J|[J|[]]]; [eapply A, J|]. injection J as <- <-. exact I. Qed.

(** An argument, then the rest. *)
Lemma then_rest a ta x k st bi rest s t W s1 t1 W1 bo b v fo g g' y ts s2 z s3 :
  dida g t s W s1 t1 W1 bo x b v fo g' -> self _ (KPrenex (a ++ [(x, k)]) st bi rest) s1 = Ok (y, ts, s2) -> bind_scope vf bo y s2 = Ok (z, s3) ->
  cov st = true -> forallb cov rest = true -> rargs (s_heap s) a ta -> args_in g t ta ->
  exists F t' W', front U ol g' t1 (ta ++ [(v, k)]) st (has_text U bi "pa") rest F ts t' /\ did g t s W s3 t' W' z (wrapped b fo F) /\ forallb cov ts = true.
Proof.
  intros D H1 H2 Fs Fr R A. destruct (dida_facts _ _ _ _ _ _ _ _ _ _ _ _ _ D) as (C1 & K1 & S1 & T1 & I1 & In1 & G1 & On1).
  destruct (c_pren _ _ _ IH _ _ _ _ _ _ _ _ g' t1 W1 (ta ++ [(v, k)]) H1 Fs Fr C1 K1 S1) as (F & t2 & W2 & B & D2 & V2 & Ts).
  { apply args_snoc; [eapply args_grows; eassumption|exact T1]. } { apply in_snoc; [|exact I1]. eapply args_scope; [exact In1|]. eapply args_next; eassumption. }
  destruct (dida_scope _ _ _ _ _ _ _ _ _ _ _ _ _ _ _ _ _ _ _ _ _ D D2 H2) as (D3 & V3). exists F, t2, W2. auto.
Qed.

Lemma prenex_ok a n bi ts s x ts' s' g t W ta : prenex_statement U vf self a n bi ts s = Ok (x, ts', s') -> cov n = true -> forallb cov ts = true ->
  ctx g s -> closed g -> said t s W -> rargs (s_heap s) a ta -> args_in g t ta ->
  exists F t' W', front U ol g t ta n (has_text U bi "pa") ts F ts' t' /\ did g t s W s' t' W' x F /\ s_vars s' = s_vars s /\ forallb cov ts' = true.
Proof.
  intros H Fn Fts C K Sd R A. unfold prenex_statement in H. apply with_vars_inv in H. destruct H as (s1 & H & ->).
  assert (Go : (exists F t' W', front U ol g t ta n (has_text U bi "pa") ts F ts' t' /\ did g t s W s1 t' W' x F /\ forallb cov ts' = true) ->
    exists F t' W', front U ol g t ta n (has_text U bi "pa") ts F ts' t' /\ did g t s W (with_vs s1 (s_vars s)) t' W' x F /\ s_vars (with_vs s1 (s_vars s)) = s_vars s /\ forallb cov ts' = true).
  { intros (F & t' & W' & B & D & Ts). exists F, t', W'. split; [exact B|]. split; [apply did_with, D|auto]. }
  apply Go. clear Go. destruct ts as [|t0 rest].
  { minv H. minv H. injection H as <- <-. subst.
    assert (P : rargs (s_heap s) (if has_text U bi "pa" then a else []) (if has_text U bi "pa" then ta else []) /\ args_in g t (if has_text U bi "pa" then ta else [])).
    { destruct (has_text U bi "pa"); [auto|]. split; [constructor|intros ? ? []]. }
    destruct P as [P1 P2]. destruct (c_stmt _ _ _ IH _ _ _ _ _ _ _ _ _ E Fn C K Sd P1 P2) as (F & t' & W' & B & D & V). exists F, t', W'. split; [constructor; exact B|]. auto. }
  cbn [forallb] in Fts. apply andb_prop in Fts. destruct Fts as [Ft Fr].
  assert (Prep : is_prep t0 = true -> (do '(sub, rest') <- self _ (KPrenex a n bi rest) ; do free <- has_free_vars vf sub ;
      if (free : bool) then do '(z, rest'') <- self _ (KPreposition t0 (ATail a n bi rest')) ; ret (z, t0 :: rest'')
      else do '(b, x) <- new_binding QThe false ; do _ <- restrict_content b x sub ; do _ <- add_the b ; do '(z, _) <- self _ (KPreposition t0 (AVar x)) ; ret (z, t0 :: rest')) s = Ok (x, ts', s1) ->
    exists F t' W', front U ol g t ta n (has_text U bi "pa") (t0 :: rest) F ts' t' /\ did g t s W s1 t' W' x F /\ forallb cov ts' = true).
  { clear H. intros Ip H. minv H. destruct (c_pren _ _ _ IH _ _ _ _ _ _ _ _ _ _ _ _ E Fn Fr C K Sd R A) as (F & t1 & W1 & B & D & V & Ts). minv H.
    destruct (did_free _ _ _ _ _ _ _ _ _ _ _ _ D C E0) as (-> & ->). destruct (free_in g F) eqn:Fr'.
    - minv H. minv H. injection H as <- <-. subst. destruct (did_args _ _ _ _ _ _ _ _ _ _ _ D R A) as (R1 & A1).
      destruct (c_prep _ _ _ IH _ _ _ _ _ _ g t1 W1 (ToRest ta n (has_text U bi "pa") l) E1 Ft (did_ctx _ _ _ _ _ _ _ _ _ D V C) K (did_said _ _ _ _ _ _ _ _ _ D)) as (G & t2 & W2 & B2 & D2 & V2 & Ts2).
      { cbn [arg_case]. auto 10. }
      exists G, t2, W2. split; [eapply FPrepFree; eassumption|]. split; [eapply did_after; [eapply did_steps, D|exact D2]|]. cbn [forallb]. rewrite Ft, Ts2. reflexivity.
    - minv H. minv H. minv H. minv H. minv H. injection H as <- <-. subst. destruct (bset_content _ _ _ _ _ _ _ _ _ _ _ _ _ _ _ D E1 E2) as (rs & B3 & V3 & T3).
      destruct (bset_the _ _ _ _ _ _ _ _ _ _ _ _ B3 E3) as (W3 & S3 & V4 & H4 & J4).
      destruct (c_prep _ _ _ IH _ _ _ _ _ _ g _ W3 (ToVar (n_next t1)) E4 Ft ltac:(eapply ctx_ran; [exact C|exact (z_ran _ _ _ _ _ _ _ S3)|congruence]) K (z_now S3)) as (G & t2 & W2 & B2 & D2 & V2 & Ts2).
      { cbn [arg_case]. rewrite H4. split; [exact T3|right; exact J4]. }
      exists G, t2, W2. split; [eapply FPrep; eassumption|]. split; [eapply did_after; [exact S3|exact D2]|]. cbn [forallb]. rewrite Ft, Ts. reflexivity. }
  assert (Adv : is_adverb t0 = true -> (do '(sub, rest') <- self _ (KPrenex a n bi rest) ; do '(b, x) <- new_binding QUnset false ; do _ <- restrict_content b x sub ; do free <- has_free_vars vf sub ;
      if (free : bool) then do _ <- set_quantifier b QAll ; do s <- self _ (KAdverb t0 x) ; do z <- bind_scope vf (Some b) s ; ret (z, t0 :: rest')
      else do _ <- set_quantifier b QThe ; do _ <- add_the b ; do z <- self _ (KAdverb t0 x) ; ret (z, t0 :: rest')) s = Ok (x, ts', s1) ->
    exists F t' W', front U ol g t ta n (has_text U bi "pa") (t0 :: rest) F ts' t' /\ did g t s W s1 t' W' x F /\ forallb cov ts' = true).
  { clear H Prep. intros Ip H. minv H. destruct (c_pren _ _ _ IH _ _ _ _ _ _ _ _ _ _ _ _ E Fn Fr C K Sd R A) as (F & t1 & W1 & B & D & V & Ts). minv H. minv H. minv H.
    destruct (did_free _ _ _ _ _ _ _ _ _ _ _ _ (did_more _ _ _ _ _ _ _ _ _ _ _ _ _ D (content_steps _ _ _ _ _ _ _ _ _ _ _ _ _ _ _ D E0 E1)) C E2) as (-> & ->).
    destruct (bset_content _ _ _ _ _ _ _ _ _ _ _ _ _ _ _ D E0 E1) as (rs & B3 & V3 & T3). destruct (free_in g F) eqn:Fr'.
    - minv H. minv H. minv H. minv H. injection H as <- <-. subst. destruct (bset_quant _ _ _ _ _ _ _ _ _ _ _ _ _ _ _ B3 E3) as (B4 & V4 & T4).
      destruct (bset_ctx _ _ _ _ _ _ _ _ _ _ _ _ _ B4 C ltac:(congruence)) as (C4 & C4').
      assert (D4 := dida_bset _ _ _ _ _ _ _ _ _ _ _ _ _ _ _ (in_scope g (n_next t1) true) B4 (T4 _ _ T3) C4' ltac:(apply closed_scope, K) eq_refl
        ltac:(eapply fine_named with (g' := in_scope g (n_next t1) true); [reflexivity|]; destruct D as (X & S & A' & Fi); apply fine_clause; [eapply fine_weak; [exact Fi|]; intros y [J|J]; [left; right; exact J|right; exact J]|left; left; reflexivity])).
      destruct (dida_facts _ _ _ _ _ _ _ _ _ _ _ _ _ D4) as (C5 & K5 & S5 & T5 & I5 & In5 & G5 & On5).
      destruct (c_adv _ _ _ IH _ _ _ _ _ _ _ _ _ E4 Ft C5 K5 S5 T5 I5) as (G & t2 & W2 & B2 & D2 & V2).
      destruct (dida_scope _ _ _ _ _ _ _ _ _ _ _ _ _ _ _ _ _ _ _ _ _ D4 D2 E5) as (D6 & V6).
      eexists _, t2, W2. split; [eapply FAdverbFree; eassumption|]. split; [exact D6|]. cbn [forallb]. rewrite Ft, Ts. reflexivity.
    - minv H. minv H. minv H. minv H. injection H as <- <-. subst. destruct (bset_quant _ _ _ _ _ _ _ _ _ _ _ _ _ _ _ B3 E3) as (B4 & V4 & T4).
      destruct (bset_the _ _ _ _ _ _ _ _ _ _ _ _ B4 E4) as (W3 & S3 & V5 & H5 & J5).
      destruct (c_adv _ _ _ IH _ _ _ _ _ g _ W3 (n_next t1) E5 Ft ltac:(eapply ctx_ran; [exact C|exact (z_ran _ _ _ _ _ _ _ S3)|congruence]) K (z_now S3) ltac:(rewrite H5; apply T4, T3) ltac:(right; exact J5)) as (G & t2 & W2 & B2 & D2 & V2).
      exists G, t2, W2. split; [eapply FAdverb; eassumption|]. split; [eapply did_after; [exact S3|exact D2]|]. cbn [forallb]. rewrite Ft, Ts. reflexivity. }
  assert (Joined : forall c l r y ts1 s2 z ts2 s3 w s4, self _ (KPrenex a n bi (l :: rest)) s = Ok (y, ts1, s2) -> self _ (KPrenex a n bi (r :: tl ts1)) s2 = Ok (z, ts2, s3) -> alloc (CConnection c y z) s3 = Ok (w, s4) ->
     cov l = true -> cov r = true -> exists F G t1 t2 W2, front U ol g t ta n (has_text U bi "pa") (l :: rest) F ts1 t1 /\ front U ol g t1 ta n (has_text U bi "pa") (r :: tl ts1) G ts2 t2 /\
       did g t s W s4 t2 W2 w (Joined c F G) /\ forallb cov ts2 = true).
  { clear H Prep Adv. intros c l r y ts1 s2 z ts2 s3 w s4 E1 E2 E3 Fl Frr.
    destruct (c_pren _ _ _ IH _ _ _ _ _ _ _ _ _ _ _ _ E1 Fn ltac:(cbn [forallb]; rewrite Fl, Fr; reflexivity) C K Sd R A) as (F1 & t1 & W1 & B1 & D1 & V1 & Ts1).
    destruct (did_args _ _ _ _ _ _ _ _ _ _ _ D1 R A) as (R1 & A1).
    assert (Tl : forallb cov (tl ts1) = true) by (destruct ts1; [reflexivity|]; cbn [forallb tl] in *; apply andb_prop in Ts1; apply Ts1).
    destruct (c_pren _ _ _ IH _ _ _ _ _ _ _ _ _ _ _ _ E2 Fn ltac:(cbn [forallb]; rewrite Frr, Tl; reflexivity) (did_ctx _ _ _ _ _ _ _ _ _ D1 V1 C) K (did_said _ _ _ _ _ _ _ _ _ D1) R1 A1) as (F2 & t2 & W2 & B2 & D2 & V2 & Ts2).
    destruct (did_conn _ _ _ _ _ _ _ _ _ _ _ _ _ _ _ _ _ D1 D2 E3) as (D3 & V3). exists F1, F2, t1, t2, W2. auto. }
  destruct t0; try discriminate; cbn [covered] in Ft.
  - (* linked *) clear Prep Adv.
    destruct (argument_ok _ _ _ IH _ _ _ _ _ _ _ _ _ _ H Ft C K Sd) as [(bo & y & s2 & b & v & g' & t1 & W1 & H1 & Rf & D)|(f & m & ru & l & r & -> & Roi & H1 & Fl & Frr)]; clear H.
    + minv H1. unfold lift in E. destruct (go_pos U go) as [pos| |] eqn:Gp; try discriminate. injection E as <- <-. apply links_pos in Gp. minv H1. minv H1. minv H1. injection H1 as <- <-. subst.
      destruct (then_rest _ _ _ _ _ _ _ _ _ _ _ _ _ _ _ _ _ _ _ _ _ _ _ _ D E E0 Fn Fr R A) as (F & t2 & W2 & B & D2 & Ts). eexists _, t2, W2. split; [eapply FLinked; eassumption|]. split; [exact D2|].
      cbn [forallb covered]. rewrite Ft, Ts. reflexivity.
    + minv H1. minv H1. minv H1. lift_conn E1. minv H1. minv H1. minv H1. minv H1. injection H1 as <- <-. subst. apply assert_ok in E, E0. destruct E as [-> ->], E0 as [-> ->].
      destruct (Joined _ _ _ _ _ _ _ _ _ _ _ E1 E2 E3 Fl Frr) as (F & G & t1 & t2 & W2 & B1 & B2 & D & Ts). eexists _, t2, W2. split; [eapply FLinkedJoined; eassumption|]. auto.
  - (* argument *) clear Prep Adv Joined. minv H. destruct (c_arg _ _ _ IH _ _ _ _ _ _ _ _ _ _ _ E Ft C K Sd) as (b & v & g' & t1 & W1 & B & D). minv H.
    assert (D' : dida g t s W s2 t1 W1 o r b v (given focus && negb (has_text U bi "pa")) g').
    { destruct o as [bo|]; [|minv E0; subst; apply dida_plain, D]. rewrite MeaningArgs.given_some in E0. destruct (given focus && negb (has_text U bi "pa")); [eapply dida_focus; eauto|minv E0; subst; exact D]. }
    minv H. minv H. minv H. injection H as <- <-. subst.
    destruct (then_rest _ _ _ _ _ _ _ _ _ _ _ _ _ _ _ _ _ _ _ _ _ _ _ _ D' E1 E2 Fn Fr R A) as (F & t2 & W2 & B2 & D2 & Ts). eexists _, t2, W2.
    split; [eapply (FArgument U ol g t ta n (has_text U bi "pa") (NPredArg focus quant t0 rel)); [constructor; exact B|exact B2]|]. split; [exact D2|]. cbn [forallb]. rewrite Ts. cbn [covered]. rewrite Ft. reflexivity.
  - (* adverb *) apply Adv; [reflexivity|exact H].
  - (* preposition *) apply Prep; [reflexivity|exact H].
  - (* connections *) destruct k; try discriminate.
    + (* term sets *) clear Prep Adv Joined. destruct t0_1; try discriminate. destruct t0_2; try discriminate. cbn [covered] in Ft. apply andb_prop in Ft. destruct Ft as [Fl Frr].
      minv H. lift_conn E. minv H. minv H. minv H. minv H. injection H as <- <-. subst. unfold prepend in *.
      destruct (c_pren _ _ _ IH _ _ _ _ _ _ _ _ _ _ _ _ E Fn ltac:(rewrite forallb_app, Fl, Fr; reflexivity) C K Sd R A) as (F1 & t1 & W1 & B1 & D1 & V1 & Ts1).
      destruct (did_args _ _ _ _ _ _ _ _ _ _ _ D1 R A) as (R1 & A1).
      destruct (c_pren _ _ _ IH _ _ _ _ _ _ _ _ _ _ _ _ E0 Fn ltac:(rewrite forallb_app, Frr, Fr; reflexivity) (did_ctx _ _ _ _ _ _ _ _ _ D1 V1 C) K (did_said _ _ _ _ _ _ _ _ _ D1) R1 A1) as (F2 & t2 & W2 & B2 & D2 & V2 & Ts2).
      destruct (did_conn _ _ _ _ _ _ _ _ _ _ _ _ _ _ _ _ _ D1 D2 E1) as (D3 & V3). eexists _, t2, W2. split; [eapply FSet; eassumption|]. split; [exact D3|]. cbn [forallb covered]. rewrite Fl, Frr, Fr. reflexivity.
    + (* arguments *) clear Prep Adv. apply andb_prop in Ft. destruct Ft as [Fl Frr]. destruct (has_text U ru "roi") eqn:Roi.
      * minv H. destruct (c_roi _ _ _ IH _ _ _ _ _ _ _ _ _ E Fl Frr C K Sd) as (b & v & g' & t1 & W1 & B & D). minv H. minv H. minv H. injection H as <- <-. subst.
        destruct (then_rest _ _ _ _ _ _ _ _ _ _ _ _ _ _ _ _ _ _ _ _ _ _ _ _ D E0 E1 Fn Fr R A) as (F & t2 & W2 & B2 & D2 & Ts). eexists _, t2, W2.
        split; [eapply (FArgument U ol g t ta n (has_text U bi "pa") (NCoP CArgument to0 to1 ru t0_1 t0_2)); [apply B, Roi|exact B2]|]. split; [exact D2|]. cbn [forallb covered]. rewrite Fl, Frr, Ts. reflexivity.
      * minv H. minv H. minv H. lift_conn E1. minv H. minv H. minv H. minv H. injection H as <- <-. subst. apply assert_ok in E, E0. destruct E as [-> ->], E0 as [-> ->].
        destruct (Joined _ _ _ _ _ _ _ _ _ _ _ E1 E2 E3 Fl Frr) as (F & G & t1 & t2 & W2 & B1 & B2 & D & Ts). eexists _, t2, W2. split; [eapply FJoined; eassumption|]. auto.
    + (* adverbs *) apply Adv; [reflexivity|exact H].
    + (* prepositions *) apply Prep; [reflexivity|exact H].
Qed.
End Front.

Theorem run_clauses U ol vf : forall fuel, cspecs U ol (run U ol vf fuel).
Proof.
  induction fuel as [|k IH]; [split; intros; discriminate|]. split; intros *; cbn [run body].
  - apply sentence_ok, IH.
  - apply subordinate_ok, IH.
  - apply statement_ok, IH.
  - apply predicate_ok, IH.
  - apply po_ok, IH.
  - apply prenex_ok, IH.
  - apply preposition_ok, IH.
  - apply by_ok, IH.
  - apply adverb_ok, IH.
  - apply roi_ok, IH.
  - apply left_ok, IH.
  - apply right_ok, IH.
  - apply plain_ok, IH.
  - apply relative_ok, IH.
Qed.
