(** The interpreter computes the meaning: the terms of a prenex, and the whole recursion. *)

From Coq Require Import String NArith List Bool Arith Lia.
From Verif Require Import Base PegSyntax Ast AstSorts Logic LogicWords LogicSpec ScopeSpec Interp OrderFacts SeqFacts TermFacts ScopeFacts ScopeInterp ScopeRun Meaning MeaningFacts MeaningNames MeaningRun MeaningStep MeaningBody MeaningArgs.
Import ListNotations.
Open Scope string_scope.
Open Scope list_scope.
Open Scope nat_scope.

Section Terms.
Variables (U : unicode) (ol : list (N * N)) (vf : nat).
Notation fo := (first_order U ol).

Section Step.
Variable self : forall A, call A -> Interp.M A.
Hypothesis IS : specs U ol self.
Hypothesis IH : mspecs U ol self.

Ltac andb := repeat match goal with H : (_ && _)%bool = true |- _ => apply andb_prop in H; destruct H end.
Ltac lift_conn E := unfold lift in E; match type of E with context [connector U ?r] => destruct (connector U r) as [?c| |] eqn:?Co; try discriminate; apply connects_connector in Co; injection E as <- <- end.

Lemma args_snoc s s1 a ta x th pos : rargs (s_heap s) a ta -> ext s s1 -> rthing (s_heap s1) x th -> rargs (s_heap s1) (a ++ [(x, pos)]) (ta ++ [(th, pos)]).
Proof. intros A X T. apply Forall2_app; [exact (args_grows _ _ _ _ (ext_grows _ _ X) A)|]. constructor; [|constructor]. auto. Qed.

Lemma focus_read s s1 bo x b th g t f bi u s2 :
  (match bo with Some b => if negb (is_none (A := word) f) && negb (has_text U bi "pa") then set_focus b else ret tt | None => ret tt end) s1 = Ok (u, s2) ->
  argd s s1 Any bo x -> rbind (s_heap s1) bo b false -> rthing (s_heap s1) x th -> ctx g s1 -> said t s1 ->
  rbind (s_heap s2) bo b (given f && negb (has_text U bi "pa")) /\ rthing (s_heap s2) x th /\ ctx g s2 /\ said t s2.
Proof.
  intros H A B T C S. rewrite given_some in H. destruct bo as [r|].
  2: { minv H. subst. destruct b as [[[? ?] [?|]]|]; auto. }
  destruct (given f && negb (has_text U bi "pa"))%bool; [|minv H; subst; auto].
  destruct A as [_ _ _ (M & _ & _)]. apply set_focus_ok in H. destruct H as (q1 & n1 & f1 & rs1 & sc1 & B1 & ->).
  destruct b as [[[q n] [R|]]|]; cbn [rbind] in B; [| |contradiction].
  - destruct B as (rs & B & Rr). rewrite B in B1. injection B1 as <- <- <- <- <-. destruct (put_read _ _ _ _ _ _ _ q true (Some rs) None _ M B S) as (S' & Rf & Rt & B').
    split; [exists rs; auto|]. split; [auto|]. split; [eapply ctx_put; eassumption|exact S'].
  - rewrite B in B1. injection B1 as <- <- <- <- <-. destruct (put_read _ _ _ _ _ _ _ q true None None _ M B S) as (S' & Rf & Rt & B').
    split; [exact B'|]. split; [auto|]. split; [eapply ctx_put; eassumption|exact S'].
Qed.

Lemma scope_read s s2 r b y F fl t z s3 : made s s2 Any r -> rbind (s_heap s2) (Some r) b fl -> rform (s_heap s2) y F -> said t s2 ->
  bind_scope vf (Some r) y s2 = Ok (z, s3) -> rform (s_heap s3) z (wrap b fl F) /\ said t s3.
Proof.
  intros M B Ry S H. destruct b as [[[q n] R]|]; [|destruct B].
  assert (Br : exists rs, nth_error (s_heap s2) r = Some (CBinding q n fl rs None) /\ match R with None => rs = None | Some R => exists x, rs = Some x /\ rform (s_heap s2) x R end).
  { destruct R as [R|]; [destruct B as (rs & B & Rr); exists (Some rs); eauto|exists None; auto]. }
  clear B. destruct Br as (rs & B & Rr). unfold bind_scope in H. destruct vf as [|k]; [discriminate|]. cbn [bind_scope_fuel] in H. minv H. apply get_binding_ok in E. destruct E as [-> B0].
  rewrite B in B0. injection B0 as Hq Hn Hf Hr Hs. rewrite <- Hs in H. minv H. minv H. subst. apply set_scope_ok in E. destruct E as (q1 & n1 & f1 & rs1 & sc1 & B1 & ->).
  rewrite B in B1. injection B1 as <- <- <- <- <-. destruct (put_read _ _ _ _ _ _ _ (b_q a) (b_focus a) (b_restr a) (Some y) _ M B S) as (S' & Rf & Rt & B').
  split; [|exact S']. cbn [wrap]. destruct R as [R|].
  - destruct Rr as (x & Ex & Rx). rewrite Ex in *. econstructor 4; [exact B'|apply Rf, Rx|apply Rf, Ry].
  - rewrite Rr in *. econstructor 3; [exact B'|apply Rf, Ry].
Qed.

Lemma rest_read s s1 bo x b th fl a ta p n bi rest y ts' s2 z s3 g' t1 : argd s s1 Any bo x -> rbind (s_heap s1) bo b fl -> rthing (s_heap s1) x th -> ctx g' s1 -> said t1 s1 ->
  rargs (s_heap s) a ta -> fo n = true -> forallb fo rest = true -> self _ (KPrenex (a ++ [(x, p)]) n bi rest) s1 = Ok (y, ts', s2) ->
  bind_scope vf bo y s2 = Ok (z, s3) ->
  exists F t2, terms U ol g' t1 (ta ++ [(th, p)]) n (has_text U bi "pa") rest F ts' t2 /\ rform (s_heap s3) z (wrap b fl F) /\ said t2 s3.
Proof.
  intros A B T C S Ar Fn Fr H Bs. assert (Ar1 := args_snoc _ _ _ _ _ _ p Ar (a_ext _ _ _ _ _ A) T).
  destruct (p_pren _ _ _ IS _ _ _ _ _ _ _ _ Any H) as (M & Vs & Ft); [exact Fn|exact Fr|exact (a_good _ _ _ _ _ A)|apply any_env|apply any_hoa|eapply any_args, Ar1|].
  destruct (r_pren _ _ _ IH _ _ _ _ _ _ _ _ _ _ _ H Fn Fr (a_good _ _ _ _ _ A) C S Ar1) as (F & t2 & D & R2 & S2). exists F, t2. split; [exact D|].
  destruct bo as [r|].
  - destruct A as [_ _ _ (Mb & _ & _)]. eapply scope_read; [exact (made_later _ _ _ _ _ Mb (m_ext _ _ _ _ M) (m_good _ _ _ _ M))| |exact R2|exact S2|exact Bs].
    eapply rbind_grows; [apply ext_grows, (m_ext _ _ _ _ M)|exact B].
  - destruct b as [[[? ?] [?|]]|]; try (destruct B; fail). cbn [bind_scope] in Bs. minv Bs. subst. auto.
Qed.

Lemma prenex_read a n bi ts s x ts' s' g t ta : prenex_statement U vf self a n bi ts s = Ok (x, ts', s') -> fo n = true -> forallb fo ts = true ->
  good s -> ctx g s -> said t s -> rargs (s_heap s) a ta ->
  exists F t', terms U ol g t ta n (has_text U bi "pa") ts F ts' t' /\ rform (s_heap s') x F /\ said t' s'.
Proof.
  intros H Fn Ft G C S A. unfold prenex_statement in H. apply with_vars_inv in H. destruct H as (s1 & H & ->).
  cut (exists F t', terms U ol g t ta n (has_text U bi "pa") ts F ts' t' /\ rform (s_heap s1) x F /\ said t' s1).
  { intros (F & t' & P & Q & D). exists F, t'. split; [exact P|]. split; [exact Q|]. eapply said_same; [..|exact D]; reflexivity. }
  destruct ts as [|tm rest].
  { minv H. minv H. injection H as <- <-. subst.
    destruct (r_stmt _ _ _ IH _ _ _ _ _ g t (if has_text U bi "pa" then ta else []) E) as (F & t' & P & Q & D); try assumption; [destruct (has_text U bi "pa"); [exact A|constructor]|].
    exists F, t'. split; [constructor; exact P|auto]. }
  cbn [forallb] in Ft. apply andb_prop in Ft. destruct Ft as [Ft Fr].
  (* two readings connected *)
  assert (Two : forall c tl tr y ts1 s2 z ts2 s3 w s4, forallb fo tl = true ->
    self _ (KPrenex a n bi tl) s = Ok (y, ts1, s2) -> (forallb fo ts1 = true -> forallb fo tr = true) -> self _ (KPrenex a n bi tr) s2 = Ok (z, ts2, s3) ->
    alloc (CConnection c y z) s3 = Ok (w, s4) ->
    exists F1 F2 t1 t2, terms U ol g t ta n (has_text U bi "pa") tl F1 ts1 t1 /\ terms U ol g t1 ta n (has_text U bi "pa") tr F2 ts2 t2 /\
      rform (s_heap s4) w (Both c F1 F2) /\ said t2 s4).
  { intros c tl tr y ts1 s2 z ts2 s3 w s4 Fl H1 Fr' H2 H3.
    destruct (p_pren _ _ _ IS _ _ _ _ _ _ _ _ Any H1) as (M1 & V1 & F1); try assumption; [apply any_env|apply any_hoa|eapply any_args, A|].
    destruct (r_pren _ _ _ IH _ _ _ _ _ _ _ _ _ _ _ H1 Fn Fl G C S A) as (P1' & t1 & D1 & R1 & S1).
    assert (A2 := args_grows _ _ _ _ (ext_grows _ _ (m_ext _ _ _ _ M1)) A).
    destruct (p_pren _ _ _ IS _ _ _ _ _ _ _ _ Any H2) as (M2 & V2 & F2); [exact Fn|auto|exact (m_good _ _ _ _ M1)|apply any_env|apply any_hoa|eapply any_args, A2|].
    destruct (r_pren _ _ _ IH _ _ _ _ _ _ _ _ _ _ _ H2 Fn (Fr' F1) (m_good _ _ _ _ M1) (ctx_ext _ _ _ C (m_ext _ _ _ _ M1) V1) S1 A2) as (P2' & t2 & D2 & R2 & S2).
    destruct (conn_read _ _ _ _ _ _ _ _ _ _ H3 R1 (m_ext _ _ _ _ M2) R2 S2) as (B & D). exists P1', P2', t1, t2. auto. }
  assert (Tl : forall l, forallb fo l = true -> forallb fo (tl l) = true) by (intros [|? ?]; cbn; [auto|]; intros K; apply andb_prop in K; apply K).
  destruct tm; try discriminate.
  - (* linked *) cbn [first_order] in Ft. unfold argument_case in H. destruct tm; try discriminate.
    + minv H. assert (D := p_arg _ _ _ IS _ _ _ _ _ _ _ _ Any E Ft G (any_env s) (any_hoa s)).
      destruct (r_arg _ _ _ IH _ _ _ _ _ _ _ _ g t E Ft G C S) as (b & th & g' & t1 & Ag & T & B & C1 & S1).
      minv H. unfold lift in E0. destruct (go_pos U go) as [pos| |] eqn:Gp; try discriminate. apply links_pos in Gp. injection E0 as <- <-.
      minv H. minv H. minv H. injection H as <- <-. subst. destruct (rest_read _ _ _ _ _ _ _ _ _ _ _ _ _ _ _ _ _ _ _ _ D B T C1 S1 A Fn Fr E0 E1) as (F & t2 & Tm & R & S2).
      eexists _, t2. split; [econstructor; eassumption|auto].
    + destruct k; try discriminate. cbn [first_order] in Ft. andb. destruct (has_text U ru "roi") eqn:Roi; [discriminate|].
      repeat minv H. injection H as <- <-. subst. apply assert_ok in E, E0. destruct E as [-> ->], E0 as [-> ->]. lift_conn E1.
      assert (K1 : forallb fo (NLinked go tm1 :: rest) = true) by (cbn [forallb first_order]; rewrite H2, Fr; reflexivity).
      assert (K2 : forallb fo l = true -> forallb fo (NLinked go tm2 :: tl l) = true) by (intros K; cbn [forallb first_order]; rewrite H1, Tl by exact K; reflexivity).
      destruct (Two _ _ _ _ _ _ _ _ _ _ _ K1 E2 K2 E3 E4) as (F1 & F2 & t1 & t2 & D1 & D2 & R & S2).
      eexists _, t2. split; [econstructor; eassumption|auto].
  - (* argument *) minv H. assert (D := p_arg _ _ _ IS _ _ _ _ _ _ _ _ Any E Ft G (any_env s) (any_hoa s)).
    destruct (r_arg _ _ _ IH _ _ _ _ _ _ _ _ g t E Ft G C S) as (b & th & g' & t1 & Ag & T & B & C1 & S1). minv H.
    destruct (focus_read _ _ _ _ _ _ _ _ _ _ _ _ E0 D B T C1 S1) as (B2 & T2 & C2 & S2). apply focus_arg with (s := s) (E := Any) (x := r) in E0; [|exact D].
    minv H. minv H. minv H. injection H as <- <-. subst. destruct (rest_read _ _ _ _ _ _ _ _ _ _ _ _ _ _ _ _ _ _ _ _ E0 B2 T2 C2 S2 A Fn Fr E1 E2) as (F & t2 & Tm & R & S3).
    eexists _, t2. split; [econstructor; eassumption|auto].
  - destruct k; try discriminate.
    + (* term set *) destruct tm1; try discriminate. destruct tm2; try discriminate. cbn [first_order] in Ft. andb.
      repeat minv H. injection H as <- <-. subst. lift_conn E.
      assert (K1 : forallb fo (prepend rest ts) = true) by (unfold prepend; rewrite forallb_app, H2, Fr; reflexivity).
      assert (K2 : forallb fo l = true -> forallb fo (prepend rest ts0) = true) by (intros _; unfold prepend; rewrite forallb_app, H1, Fr; reflexivity).
      destruct (Two _ _ _ _ _ _ _ _ _ _ _ K1 E0 K2 E1 E2) as (F1 & F2 & t1 & t2 & D1 & D2 & R & S2).
      eexists _, t2. split; [econstructor; eassumption|auto].
    + (* argument *) cbn [first_order] in Ft. andb. destruct (has_text U ru "roi") eqn:Roi; [discriminate|].
      repeat minv H. injection H as <- <-. subst. apply assert_ok in E, E0. destruct E as [-> ->], E0 as [-> ->]. lift_conn E1.
      assert (K1 : forallb fo (tm1 :: rest) = true) by (cbn [forallb]; rewrite H2, Fr; reflexivity).
      assert (K2 : forallb fo l = true -> forallb fo (tm2 :: tl l) = true) by (intros K; cbn [forallb]; rewrite H1, Tl by exact K; reflexivity).
      destruct (Two _ _ _ _ _ _ _ _ _ _ _ K1 E2 K2 E3 E4) as (F1 & F2 & t1 & t2 & D1 & D2 & R & S2).
      eexists _, t2. split; [econstructor; eassumption|auto].
Qed.
End Step.

Theorem run_means : forall fuel, mspecs U ol (run U ol vf fuel).
Proof.
  induction fuel as [|f IH]; [split; intros; discriminate|]. assert (IS := run_specs U ol vf f). split; cbn [run body].
  - intros. eapply sentence_read; eassumption.
  - intros. eapply subordinate_read; eassumption.
  - intros. eapply statement_read; eassumption.
  - intros. eapply prenex_read; eassumption.
  - intros. eapply predicate_read; eassumption.
  - intros. eapply argument_read; eassumption.
  - intros. eapply relative_read; eassumption.
Qed.
End Terms.
