(** The interpreter computes the meaning, method by method. *)

From Coq Require Import String NArith List Bool Arith Lia.
From Verif Require Import Base PegSyntax Ast AstSorts Logic LogicWords LogicSpec ScopeSpec Interp OrderFacts SeqFacts TermFacts ScopeFacts ScopeInterp ScopeRun Meaning MeaningFacts MeaningNames MeaningRun MeaningStep.
Import ListNotations.
Open Scope string_scope.
Open Scope list_scope.
Open Scope nat_scope.

Lemma said_same t s s' : s_heap s' = s_heap s -> s_n s' = s_n s -> s_lifted s' = s_lifted s -> s_the s' = s_the s -> said t s -> said t s'.
Proof. intros A B C D [N Nu L O K]. split; rewrite ?A, ?B, ?C, ?D; assumption. Qed.
Lemma ctx_same g s s' : s_heap s' = s_heap s -> s_vars s' = s_vars s -> s_hoa s' = s_hoa s -> ctx g s -> ctx g s'.
Proof. intros A B C [V H]. split; rewrite ?A, ?B, ?C; assumption. Qed.
Lemma good_same s s' : s_heap s' = s_heap s -> s_the s' = s_the s -> s_lifted s' = s_lifted s -> s_vars s' = s_vars s -> good s -> good s'.
Proof. unfold good. intros -> -> -> ->. auto. Qed.

(** A binding without its scope. *)
Definition rbind (h : heap) (bo : option ref) (b : option (quant * nat * option formula)) (fo : bool) : Prop :=
  match bo, b with
  | None, None => True
  | Some r, Some (q, n, None) => nth_error h r = Some (CBinding q n fo None None)
  | Some r, Some (q, n, Some R) => exists rs, nth_error h r = Some (CBinding q n fo (Some rs) None) /\ rform h rs R
  | _, _ => False
  end.
Lemma rbind_grows h h' bo b fo : grows h h' -> rbind h bo b fo -> rbind h' bo b fo.
Proof.
  intros G. destruct bo as [r|], b as [[[q n] [R|]]|]; cbn [rbind]; auto. intros (rs & E & F). exists rs. split; [apply G, E|eapply form_grows; eassumption].
Qed.

Section Body.
Variables (U : unicode) (ol : list (N * N)) (vf : nat).
Notation fo := (first_order U ol).

Definition hoa_case (bo : option ref) (h : heap) (g g' : context) : Prop :=
  match bo with None => g' = g | Some b => exists x, num h b x /\ g' = with_hoa g x end.

Record mspecs (self : forall A, call A -> Interp.M A) : Prop := MSpecs {
  r_sent : forall n s x s' t, self _ (KSentence n) s = Ok (x, s') -> fo n = true -> good s -> ctx (Context [] None) s -> said t s ->
    exists F t', sentence U ol t n F t' /\ rform (s_heap s') x F /\ said t' s';
  r_sub : forall n s x s' g t, self _ (KSubordinate n) s = Ok (x, s') -> fo n = true -> good s -> ctx g s -> said t s ->
    exists F t', statement U ol g t [] n F t' /\ rform (s_heap s') x F /\ said t' s';
  r_stmt : forall a n s x s' g t ta, self _ (KStatement a n) s = Ok (x, s') -> fo n = true -> good s -> ctx g s -> said t s -> rargs (s_heap s) a ta ->
    exists F t', statement U ol g t ta n F t' /\ rform (s_heap s') x F /\ said t' s';
  r_pren : forall a n bi ts s x ts' s' g t ta, self _ (KPrenex a n bi ts) s = Ok (x, ts', s') -> fo n = true -> forallb fo ts = true ->
    good s -> ctx g s -> said t s -> rargs (s_heap s) a ta ->
    exists F t', terms U ol g t ta n (has_text U bi "pa") ts F ts' t' /\ rform (s_heap s') x F /\ said t' s';
  r_pred : forall n s p s' g t, self _ (KPredicate n) s = Ok (p, s') -> fo n = true -> good s -> ctx g s -> said t s ->
    exists P i, predicate_of U ol (c_vars g) n (t_next t) = Some (P, i) /\ rpred (s_heap s') p P /\ said (with_next t i) s';
  r_arg : forall f q p rel s bo x s' g t, self _ (KPredArg f q p rel) s = Ok (bo, x, s') -> fo (NPredArg f q p rel) = true ->
    good s -> ctx g s -> said t s ->
    exists b th g' t', argument U ol g t f q p rel b th g' t' /\ rthing (s_heap s') x th /\ rbind (s_heap s') bo b false /\ ctx g' s' /\ said t' s';
  r_rel : forall bo n s x s' g g' t, self _ (KRelative bo n) s = Ok (x, s') -> fo n = true -> good s -> ctx g s -> hoa_case bo (s_heap s) g g' -> said t s ->
    exists F t', clause U ol g' t n F t' /\ rform (s_heap s') x F /\ said t' s' }.

Section Step.
Variable self : forall A, call A -> Interp.M A.
Hypothesis IS : specs U ol self.
Hypothesis IH : mspecs self.

Ltac andb := repeat match goal with H : (_ && _)%bool = true |- _ => apply andb_prop in H; destruct H end.
Ltac lift_conn E := unfold lift in E; match type of E with context [connector U ?r] => destruct (connector U r) as [?c| |] eqn:?Co; try discriminate; apply connects_connector in Co; injection E as <- <- end.

Lemma conn_read t s1 s2 k x y z s3 F G : alloc (CConnection k x y) s2 = Ok (z, s3) -> rform (s_heap s1) x F -> ext s1 s2 -> rform (s_heap s2) y G -> said t s2 ->
  rform (s_heap s3) z (Both k F G) /\ said t s3.
Proof.
  intros H Fx X Gy S. destruct (said_plain _ _ _ _ _ H eq_refl S) as (S3 & N & Gr). split; [|exact S3].
  econstructor 2; [exact N|eapply form_grows; [|exact Fx]; eapply grows_trans; [apply ext_grows, X|exact Gr]|eapply form_grows; eassumption].
Qed.

Lemma sentence_read n s x s' t : do_sentence U self n s = Ok (x, s') -> fo n = true -> good s -> ctx (Context [] None) s -> said t s ->
  exists F t', sentence U ol t n F t' /\ rform (s_heap s') x F /\ said t' s'.
Proof.
  intros H Fo G C S. destruct n; try discriminate; cbn [do_sentence first_order] in *.
  - destruct (r_sub _ IH _ _ _ _ _ _ H Fo G C S) as (F & t' & A & B & D). exists F, t'. split; [constructor; exact A|auto].
  - destruct k; try discriminate. destruct (has_text U ru "ru") eqn:Ru; [|discriminate]. cbn [negb] in H. andb. repeat minv H.
    apply assert_ok in E, E1. destruct E as [-> ->], E1 as [-> ->].
    destruct (p_sent _ _ _ IS _ _ _ _ Any E0) as (M1 & V1); try assumption; [apply any_env|apply any_hoa|].
    destruct (p_sent _ _ _ IS _ _ _ _ Any E2) as (M2 & V2); try assumption; [exact (m_good _ _ _ _ M1)|apply any_env|apply any_hoa|].
    destruct (r_sent _ IH _ _ _ _ _ E0 ltac:(assumption) G C S) as (F1 & t1 & A1 & B1 & D1).
    destruct (r_sent _ IH _ _ _ _ _ E2 ltac:(assumption) (m_good _ _ _ _ M1) (ctx_ext _ _ _ C (m_ext _ _ _ _ M1) V1) D1) as (F2 & t2 & A2 & B2 & D2).
    destruct (conn_read _ _ _ _ _ _ _ _ _ _ H B1 (m_ext _ _ _ _ M2) B2 D2) as (B & D). exists (Both KAnd F1 F2), t2. split; [econstructor; eassumption|auto].
Qed.

Lemma subordinate_read n s x s' g t : subordinate vf (self _ (KStatement [] n)) s = Ok (x, s') -> fo n = true -> good s -> ctx g s -> said t s ->
  exists F t', statement U ol g t [] n F t' /\ rform (s_heap s') x F /\ said t' s'.
Proof.
  intros H Fo G C S. unfold subordinate in H. minv H. injection E as <- <-. minv H. injection E as <-. minv H.
  set (s1 := St (s_heap s) (s_n s) (s_the s) ([] :: s_hi s) (s_lifted s) (s_hoa s) (s_vars s)) in *.
  assert (G1 : good s1) by exact G.
  destruct (p_stmt _ _ _ IS _ _ _ _ _ Any E) as (M & Vs); try assumption; [apply any_env|apply any_hoa|intros ? ? []|].
  destruct (r_stmt _ IH _ _ _ _ _ g t [] E Fo G1) as (F & t' & A & B & D); [eapply ctx_same; [..|exact C]; reflexivity|eapply said_same; [..|exact S]; reflexivity|constructor|].
  minv H. injection E0 as <- <-. minv H. injection E0 as <- <-. minv H. minv H. injection E1 as <-. minv H. subst.
  assert (Hi := e_hi _ _ _ _ _ _ _ _ (m_ext _ _ _ _ M)). cbn [s_hi s1] in Hi. rewrite Hi in *. cbn [hd rev] in E0. cbn [bind_his] in E0. minv E0. subst.
  exists F, t'. split; [exact A|]. split; [exact B|]. eapply said_same; [..|exact D]; reflexivity.
Qed.

Lemma statement_read a n s x s' g t ta : do_statement U self a n s = Ok (x, s') -> fo n = true -> good s -> ctx g s -> said t s -> rargs (s_heap s) a ta ->
  exists F t', statement U ol g t ta n F t' /\ rform (s_heap s') x F /\ said t' s'.
Proof.
  intros H Fo G C S A. unfold do_statement in H. apply with_vars_inv in H. destruct H as (s1 & H & ->).
  cut (exists F t', statement U ol g t ta n F t' /\ rform (s_heap s1) x F /\ said t' s1).
  { intros (F & t' & P & Q & D). exists F, t'. split; [exact P|]. split; [exact Q|]. eapply said_same; [..|exact D]; reflexivity. }
  destruct n; try discriminate; cbn [first_order] in Fo; andb.
  - destruct n1; try discriminate. minv H. minv H. subst. destruct (r_pren _ IH _ _ _ _ _ _ _ _ g t ta E) as (F & t' & P & Q & D); try assumption. exists F, t'. split; [econstructor; exact P|auto].
  - destruct ts as [ts|].
    + destruct (r_stmt _ IH _ _ _ _ _ g t ta H) as (F & t' & P & Q & D); try assumption; [cbn [first_order]; rewrite H1, H0; reflexivity|].
      exists F, t'. split; [|auto]. inversion P; subst. rewrite pa_text in *. econstructor. eassumption.
    + unfold predication in H. minv H. destruct (p_pred _ _ _ IS _ _ _ _ Any E) as (G1 & X1 & V1 & P1'); try assumption; [apply any_env|].
      destruct (r_pred _ IH _ _ _ _ g t E) as (P & i & Ep & Rp & D1); try assumption.
      destruct (distribute_placed _ _ _ _ _ _ _ _ H (args_grows _ _ _ _ (ext_grows _ _ X1) A) Rp D1) as (tl & Pl & Fz & D2 & _).
      exists (holds P tl), (with_next t i). split; [econstructor; eassumption|auto].
  - destruct k; try discriminate. repeat minv H. apply assert_ok in E0, E2. destruct E0 as [-> ->], E2 as [-> ->]. lift_conn E.
    destruct (p_stmt _ _ _ IS _ _ _ _ _ Any E1) as (M1 & V1); try assumption; [apply any_env|apply any_hoa|eapply any_args, A|].
    destruct (r_stmt _ IH _ _ _ _ _ g t ta E1) as (F1 & t1 & A1 & B1 & D1); try assumption.
    assert (A' := args_grows _ _ _ _ (ext_grows _ _ (m_ext _ _ _ _ M1)) A).
    destruct (p_stmt _ _ _ IS _ _ _ _ _ Any E3) as (M2 & V2); try assumption; [exact (m_good _ _ _ _ M1)|apply any_env|apply any_hoa|eapply any_args, A'|].
    destruct (r_stmt _ IH _ _ _ _ _ g t1 ta E3) as (F2 & t2 & A2 & B2 & D2); try assumption; [exact (m_good _ _ _ _ M1)|exact (ctx_ext _ _ _ C (m_ext _ _ _ _ M1) V1)|].
    destruct (conn_read _ _ _ _ _ _ _ _ _ _ H B1 (m_ext _ _ _ _ M2) B2 D2) as (B & D). eexists _, t2. split; [econstructor; eassumption|auto].
Qed.

Lemma predicate_read n s p s' g t : do_predicate U ol vf self n s = Ok (p, s') -> fo n = true -> good s -> ctx g s -> said t s ->
  exists P i, predicate_of U ol (c_vars g) n (t_next t) = Some (P, i) /\ rpred (s_heap s') p P /\ said (with_next t i) s'.
Proof.
  intros H Fo G C S. destruct n; try discriminate; cbn [first_order] in Fo; cbn [do_predicate] in H.
  - (* serial *) andb. repeat minv H. apply assert_ok in E, E1. destruct E as [-> ->], E1 as [-> ->].
    destruct (p_pred _ _ _ IS _ _ _ _ Any E0) as (G1 & X1 & V1 & _); try assumption; [apply any_env|].
    destruct (r_pred _ IH _ _ _ _ g t E0) as (P1' & i1 & Ep1 & Rp1 & D1); try assumption.
    destruct (p_pred _ _ _ IS _ _ _ _ Any E2) as (G2 & X2 & V2 & _); try assumption; [apply any_env|].
    destruct (r_pred _ IH _ _ _ _ g (with_next t i1) E2) as (P2' & i2 & Ep2 & Rp2 & D2); try assumption; [exact (ctx_ext _ _ _ C X1 V1)|].
    destruct (serial_left_read _ _ _ _ _ _ _ _ _ H (grows_refl _) (pred_grows _ _ (ext_grows _ _ X2) _ _ Rp1) Rp2 D2) as (R & D3 & _).
    exists (serial P1' P2'), i2. cbn [predicate_of]. rewrite Ep1. cbn [with_next t_next] in Ep2. rewrite Ep2. auto.
  - (* word *) cbn [predicate_of]. destruct (is_variable U ol (NWordPredicate w)) as [v|] eqn:Iv.
    + minv H. minv H. minv H. subst. destruct (lookup_read _ _ _ _ _ _ E (k_vars _ _ C) _ _ _ S E0) as (th & i & L & T & D & _).
      rewrite L. exists (One (Unnamed th)), i. split; [reflexivity|]. split; [constructor 2; exact T|exact D].
    + destruct (is_hoa U (NWordPredicate w)); [discriminate|]. minv H. minv H. subst. destruct (said_plain _ _ _ _ _ E eq_refl S) as (D & N & _).
      exists (One (Named (word_pred U (w_t w)))), (t_next t). split; [reflexivity|]. split; [constructor 1; exact N|]. destruct t; exact D.
  - (* connection *) destruct k; try discriminate. andb. repeat minv H. apply assert_ok in E0, E2. destruct E0 as [-> ->], E2 as [-> ->]. lift_conn E. subst.
    destruct (p_pred _ _ _ IS _ _ _ _ Any E1) as (G1 & X1 & V1 & _); try assumption; [apply any_env|].
    destruct (r_pred _ IH _ _ _ _ g t E1) as (P1' & i1 & Ep1 & Rp1 & D1); try assumption.
    destruct (p_pred _ _ _ IS _ _ _ _ Any E3) as (G2 & X2 & V2 & _); try assumption; [apply any_env|].
    destruct (r_pred _ IH _ _ _ _ g (with_next t i1) E3) as (P2' & i2 & Ep2 & Rp2 & D2); try assumption; [exact (ctx_ext _ _ _ C X1 V1)|].
    exists (Two c P1' P2'), i2. cbn [predicate_of]. rewrite Co, Ep1. cbn [with_next t_next] in Ep2. rewrite Ep2. split; [reflexivity|]. split; [|exact D2].
    cbn [rpred]. split; [reflexivity|]. split; [eapply pred_grows; [apply ext_grows, X2|exact Rp1]|exact Rp2].
  - destruct k; discriminate.
Qed.

Lemma relative_read bo n s x s' g g' t : relative_clause U self bo n s = Ok (x, s') -> fo n = true -> good s -> ctx g s -> hoa_case bo (s_heap s) g g' -> said t s ->
  exists F t', clause U ol g' t n F t' /\ rform (s_heap s') x F /\ said t' s'.
Proof.
  intros H Fo G C Hc S. unfold relative_clause in H. apply with_vars_inv in H. destruct H as (s1 & H & ->).
  cut (exists F t', clause U ol g' t n F t' /\ rform (s_heap s1) x F /\ said t' s1).
  { intros (F & t' & P & Q & D). exists F, t'. split; [exact P|]. split; [exact Q|]. eapply said_same; [..|exact D]; reflexivity. }
  minv H.
  assert (S0 : exists l, s0 = St (s_heap s) (s_n s) (s_the s) (s_hi s) (s_lifted s) l (s_vars s) /\ ctx g' s0).
  { destruct bo as [b|].
    - unfold push_hoa in E. minv E. injection E0 as <- <-. injection E as <-. exists (b :: s_hoa s). split; [reflexivity|].
      destruct Hc as (y & Ny & ->). destruct C as [V _]. split; [exact V|]. constructor. exact Ny.
    - minv E. subst. cbn [hoa_case] in Hc. subst g'. exists (s_hoa s0). destruct s0. auto. }
  clear E. destruct S0 as (l & -> & C0). set (s0 := St (s_heap s) (s_n s) (s_the s) (s_hi s) (s_lifted s) l (s_vars s)) in *.
  assert (G0 : good s0) by exact G. assert (D0 : said t s0) by (eapply said_same; [..|exact S]; reflexivity). minv H.
  assert (M : exists F t', clause U ol g' t n F t' /\ rform (s_heap s2) a F /\ said t' s2).
  { destruct n; try discriminate; cbn [first_order] in Fo.
    - destruct (r_sub _ IH _ _ _ _ _ _ E Fo G0 C0 D0) as (F & t' & A & B & D). exists F, t'. split; [constructor; exact A|auto].
    - destruct k; try discriminate. andb. repeat minv E. apply assert_ok in E1, E3. destruct E1 as [-> ->], E3 as [-> ->]. lift_conn E0.
      destruct (p_rel _ _ _ IS _ _ _ _ _ Any E2) as (M1 & V1); try assumption; [apply any_env|apply any_hoa|].
      destruct (r_rel _ IH _ _ _ _ _ _ _ _ E2 ltac:(assumption) G0 C0 eq_refl D0) as (F1 & t1 & A1 & B1 & D1).
      destruct (p_rel _ _ _ IS _ _ _ _ _ Any E4) as (M2 & V2); try assumption; [exact (m_good _ _ _ _ M1)|apply any_env|apply any_hoa|].
      destruct (r_rel _ IH _ _ _ _ _ _ _ _ E4 ltac:(assumption) (m_good _ _ _ _ M1) (ctx_ext _ _ _ C0 (m_ext _ _ _ _ M1) V1) eq_refl D1) as (F2 & t2 & A2 & B2 & D2).
      destruct (conn_read _ _ _ _ _ _ _ _ _ _ E B1 (m_ext _ _ _ _ M2) B2 D2) as (B & D). eexists _, t2. split; [econstructor; eassumption|auto].
    - destruct k; try discriminate. destruct (r_sub _ IH _ _ _ _ _ _ E Fo G0 C0 D0) as (F & t' & A & B & D). exists F, t'. split; [constructor; exact A|auto]. }
  clear E. destruct M as (F & t' & A & B & D). minv H. apply ret_ok in H. destruct H as [<- ->]. exists F, t'. split; [exact A|].
  destruct bo.
  - unfold pop_hoa in E. minv E. injection E0 as <- <-. injection E as <-. split; [exact B|]. eapply said_same; [..|exact D]; reflexivity.
  - apply ret_ok in E. destruct E as [_ <-]. auto.
Qed.
End Step.
End Body.
