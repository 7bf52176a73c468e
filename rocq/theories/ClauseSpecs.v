(** The interpreter computes the meaning of clauses: statements, predicates and what is
    between them. *)

From Coq Require Import String NArith List Bool Arith Lia.
From Verif Require Import Base PegSyntax Ast AstSorts Logic LogicWords LogicSpec ScopeSpec Interp OrderFacts SeqFacts TermFacts ScopeFacts ScopeInterp ScopeRun Meaning MeaningFacts Clauses ClauseHeap ClauseRun ClauseStep ClauseBind.
From Verif Require MeaningStep MeaningArgs.
Import ListNotations.
Open Scope string_scope.
Open Scope list_scope.
Open Scope nat_scope.

Section Specs.
Variables (U : unicode) (ol : list (N * N)) (vf : nat).
Notation cov := (covered U ol).

Definition hoa_case (bo : option ref) (h : heap) (g g' : scene) : Prop :=
  match bo with None => g' = g | Some b => exists x, num h b x /\ In x (bnames g) /\ g' = about g x end.
Definition arg_case (h : heap) (g : scene) (t : told) (a : arg0) (r : related) : Prop :=
  match a, r with
  | AVar v, ToVar x => rthing h v (Bound x false) /\ inS g t x
  | ATail a st bi ts, ToRest ta st' keep ts' => rargs h a ta /\ args_in g t ta /\ st' = st /\ keep = has_text U bi "pa" /\ ts' = ts /\ cov st = true /\ forallb cov ts = true
  | _, _ => False
  end.

Record cspecs (self : forall A, call A -> Interp.M A) : Prop := CSpecs {
  c_sent : forall n s x s' t W, self _ (KSentence n) s = Ok (x, s') -> cov n = true -> ctx scene0 s -> said t s W ->
    exists F t' W', says_sentence U ol t n F t' /\ did scene0 t s W s' t' W' x F /\ s_vars s' = s_vars s;
  c_sub : forall n s x s' g t W, self _ (KSubordinate n) s = Ok (x, s') -> cov n = true -> ctx g s -> closed g -> said t s W ->
    exists F t' W', states U ol g t [] n F t' /\ did g t s W s' t' W' x F /\ s_vars s' = s_vars s;
  c_stmt : forall a n s x s' g t W ta, self _ (KStatement a n) s = Ok (x, s') -> cov n = true -> ctx g s -> closed g -> said t s W -> rargs (s_heap s) a ta -> args_in g t ta ->
    exists F t' W', states U ol g t ta n F t' /\ did g t s W s' t' W' x F /\ s_vars s' = s_vars s;
  c_pred : forall n s p s' g t W, self _ (KPredicate n) s = Ok (p, s') -> cov n = true -> ctx g s -> closed g -> said t s W ->
    exists P t' W', predicates U ol g t n P t' /\ didp g t s W s' t' W' p P /\ s_vars s' = s_vars s /\ (no_abstraction n = true -> plainly P <> None);
  c_po : forall pred a0 a1 s x s' g t W nm y, self _ (KPoArgument pred a0 a1) s = Ok (x, s') -> cov a1 = true -> ctx g s -> closed g -> said t s W ->
    nth_error (s_heap s) pred = Some (CPred nm) -> rthing (s_heap s) a0 (Bound y false) -> inS g t y ->
    exists F t' W', po_says U ol g t nm y a1 F t' /\ did g t s W s' t' W' x F /\ s_vars s' = s_vars s;
  c_pren : forall a n bi ts s x ts' s' g t W ta, self _ (KPrenex a n bi ts) s = Ok (x, ts', s') -> cov n = true -> forallb cov ts = true ->
    ctx g s -> closed g -> said t s W -> rargs (s_heap s) a ta -> args_in g t ta ->
    exists F t' W', front U ol g t ta n (has_text U bi "pa") ts F ts' t' /\ did g t s W s' t' W' x F /\ s_vars s' = s_vars s /\ forallb cov ts' = true;
  c_prep : forall n a s x ts s' g t W r, self _ (KPreposition n a) s = Ok (x, ts, s') -> cov n = true -> ctx g s -> closed g -> said t s W -> arg_case (s_heap s) g t a r ->
    exists F t' W', relates U ol g t n r F ts t' /\ did g t s W s' t' W' x F /\ s_vars s' = s_vars s /\ forallb cov ts = true;
  c_by : forall p a n s x ts s' g t W r, self _ (KPredPreposition p a n) s = Ok (x, ts, s') -> cov p = true -> cov n = true -> ctx g s -> closed g -> said t s W -> arg_case (s_heap s) g t a r ->
    exists F t' W', relates_by U ol g t p r n F ts t' /\ did g t s W s' t' W' x F /\ s_vars s' = s_vars s /\ forallb cov ts = true;
  c_adv : forall n a s x s' g t W y, self _ (KAdverb n a) s = Ok (x, s') -> cov n = true -> ctx g s -> closed g -> said t s W -> rthing (s_heap s) a (Bound y false) -> inS g t y ->
    exists F t' W', modifies U ol g t n y F t' /\ did g t s W s' t' W' x F /\ s_vars s' = s_vars s;
  c_roi : forall l r s bo x s' g t W, self _ (KRoi l r) s = Ok (bo, x, s') -> cov l = true -> cov r = true -> ctx g s -> closed g -> said t s W ->
    exists b v g' t' W', (forall f m ru, has_text U ru "roi" = true -> refers U ol g t (NCoP CArgument f m ru l r) b v g' t') /\ dida g t s W s' t' W' bo x b v false g';
  c_left : forall x l r s y s' g t W z, self _ (KRoiLeft x l r) s = Ok (y, s') -> cov l = true -> cov r = true -> ctx g s -> closed g -> said t s W -> rthing (s_heap s) x (Bound z false) -> inS g t z ->
    exists F g' t' W', both_left U ol g t z l r F g' t' /\ didr g t s W s' t' W' y F g';
  c_right : forall x l r s y s' g t W z v, self _ (KRoiRight x l r) s = Ok (y, s') -> cov r = true -> ctx g s -> closed g -> said t s W ->
    rthing (s_heap s) x (Bound z false) -> inS g t z -> rthing (s_heap s) l v -> var_in g t v ->
    exists F g' t' W', both_right U ol g t z v r F g' t' /\ didr g t s W s' t' W' y F g';
  c_arg : forall f q p rel s bo x s' g t W, self _ (KPredArg f q p rel) s = Ok (bo, x, s') -> cov (NPredArg f q p rel) = true -> ctx g s -> closed g -> said t s W ->
    exists b v g' t' W', stands U ol g t f q p rel b v g' t' /\ dida g t s W s' t' W' bo x b v false g';
  c_rel : forall bo n s x s' g g' t W, self _ (KRelative bo n) s = Ok (x, s') -> cov n = true -> ctx g s -> closed g -> hoa_case bo (s_heap s) g g' -> said t s W ->
    exists F t' W', says_clause U ol g' t n F t' /\ did g t s W s' t' W' x F /\ s_vars s' = s_vars s }.

Section Step.
Variable self : forall A, call A -> Interp.M A.
Hypothesis IH : cspecs self.

Ltac lift_conn E := unfold lift in E; match type of E with context [connector U ?r] => destruct (connector U r) as [?c| |] eqn:?Co; try discriminate; apply connects_connector in Co; injection E as <- <- end.

Lemma did_ctx g t s W s' t' W' x F : did g t s W s' t' W' x F -> s_vars s' = s_vars s -> ctx g s -> ctx g s'.
Proof. intros (X & S & _) V C. eapply ctx_ran; [exact C|exact (z_ran _ _ _ _ _ _ _ S)|exact V]. Qed.
Lemma did_said g t s W s' t' W' x F : did g t s W s' t' W' x F -> said t' s' W'.
Proof. intros (X & S & _). exact (z_now S). Qed.
Lemma did_args g t s W s' t' W' x F a ta : did g t s W s' t' W' x F -> rargs (s_heap s) a ta -> args_in g t ta -> rargs (s_heap s') a ta /\ args_in g t' ta.
Proof. intros (X & S & _) R A. split; [eapply args_grows; [exact (z_grows S)|exact R]|eapply args_next; [exact (z_names _ _ _ _ _ _ _ S)|exact A]]. Qed.
Lemma did_thing g t s W s' t' W' x F a v : did g t s W s' t' W' x F -> rthing (s_heap s) a v -> rthing (s_heap s') a v.
Proof. intros (X & S & _) R. eapply thing_grows; [exact (z_grows S)|exact R]. Qed.
Lemma did_in g t s W s' t' W' x F y : did g t s W s' t' W' x F -> inS g t y -> inS g t' y.
Proof. intros (X & S & _). apply inS_next, (z_names _ _ _ _ _ _ _ S). Qed.
Lemma did_nth g t s W s' t' W' x F r c : did g t s W s' t' W' x F -> nth_error (s_heap s) r = Some c -> nth_error (s_heap s') r = Some c.
Proof. intros (X & S & _). apply (z_grows S). Qed.

Lemma sentence_ok n s x s' t W : do_sentence U self n s = Ok (x, s') -> cov n = true -> ctx scene0 s -> said t s W ->
  exists F t' W', says_sentence U ol t n F t' /\ did scene0 t s W s' t' W' x F /\ s_vars s' = s_vars s.
Proof.
  intros H Fo C S. destruct n; try discriminate; cbn [do_sentence covered] in *.
  - destruct (c_sub _ IH _ _ _ _ _ _ _ H Fo C ltac:(split; [intros ? ? []|discriminate]) S) as (F & t' & W' & A & D & V). exists F, t', W'. split; [constructor; exact A|auto].
  - destruct k; try discriminate. destruct (has_text U ru "ru") eqn:Ru; [|discriminate]. cbn [negb] in H. andb. repeat minv H.
    apply assert_ok in E, E1. destruct E as [-> ->], E1 as [-> ->].
    destruct (c_sent _ IH _ _ _ _ _ _ E0 ltac:(assumption) C S) as (F1 & t1 & W1 & A1 & D1 & V1).
    destruct (c_sent _ IH _ _ _ _ _ _ E2 ltac:(assumption) (did_ctx _ _ _ _ _ _ _ _ _ D1 V1 C) (did_said _ _ _ _ _ _ _ _ _ D1)) as (F2 & t2 & W2 & A2 & D2 & V2).
    destruct (did_conn _ _ _ _ _ _ _ _ _ _ _ _ _ _ _ _ _ D1 D2 H) as (D3 & V3). exists (Joined KAnd F1 F2), t2, W2. split; [econstructor; eassumption|]. split; [exact D3|congruence].
Qed.

Lemma steps_around s s0 t W X s1 t' W' s2 : steps s0 t W X s1 t' W' -> s_heap s0 = s_heap s -> s_n s0 = s_n s -> s_lifted s0 = s_lifted s -> s_the s0 = s_the s ->
  s_heap s2 = s_heap s1 -> s_n s2 = s_n s1 -> s_lifted s2 = s_lifted s1 -> s_the s2 = s_the s1 -> s_hoa s2 = s_hoa s -> s_hi s2 = s_hi s -> steps s t W X s2 t' W'.
Proof.
  intros [A0 R N A (V & E & F)] H1 H2 H3 H4 H5 H6 H7 H8 H9 H10. split; auto.
  - eapply said_same; [..|exact A0]; congruence.
  - split; [rewrite H5, <- H1; apply R|assumption..].
  - eapply said_same; [..|exact A]; assumption.
  - exists V. rewrite H5, <- H1. auto.
Qed.

Lemma subordinate_ok n s x s' g t W : subordinate vf (self _ (KStatement [] n)) s = Ok (x, s') -> cov n = true -> ctx g s -> closed g -> said t s W ->
  exists F t' W', states U ol g t [] n F t' /\ did g t s W s' t' W' x F /\ s_vars s' = s_vars s.
Proof.
  intros H Fo C K S. unfold subordinate in H. minv H. injection E as <- <-. minv H. injection E as <-. minv H.
  set (s1 := St (s_heap s) (s_n s) (s_the s) ([] :: s_hi s) (s_lifted s) (s_hoa s) (s_vars s)) in *.
  destruct (c_stmt _ IH _ _ _ _ _ g t W [] E Fo) as (F & t' & W' & A & D & V); [eapply ctx_same; [..|exact C]; reflexivity|exact K|eapply said_same; [..|exact S]; reflexivity|constructor|intros ? ? []|].
  minv H. injection E0 as <- <-. minv H. injection E0 as <- <-. minv H. minv H. injection E1 as <-. minv H. subst.
  assert (R : ran s1 s0) by (destruct D as (X & Z & _); exact (z_ran _ _ _ _ _ _ _ Z)). assert (Hi := r_hi _ _ R). assert (Ho := r_hoa _ _ R). cbn [s_hi s_hoa s1] in Hi, Ho.
  rewrite Hi in *. cbn [hd rev] in E0. cbn [bind_his] in E0. minv E0. subst. exists F, t', W'. split; [exact A|]. split; [|exact V].
  destruct D as (X & Z & A' & Fi). exists X. split; [|auto]. eapply steps_around; [exact Z|reflexivity..|exact Ho|reflexivity].
Qed.

Lemma didp_said g t s W s' t' W' p P : didp g t s W s' t' W' p P -> said t' s' W'.
Proof. intros (X & S & _). exact (z_now S). Qed.

Lemma predication_ok p a s x s' g t W ta : predication self p a s = Ok (x, s') -> cov p = true -> ctx g s -> closed g -> said t s W -> rargs (s_heap s) a ta -> args_in g t ta ->
  exists P l t' W', predicates U ol g t p P t' /\ placed ta l /\ did g t s W s' t' W' x (said_of P (row_of l)) /\ s_vars s' = s_vars s.
Proof.
  intros H Fo C K S R A. unfold predication in H. minv H. destruct (c_pred _ IH _ _ _ _ _ _ _ E Fo C K S) as (P & t' & W' & Pr & D & V & _).
  assert (G := D). destruct G as (X & Z & _).
  destruct (did_pred _ _ _ _ _ _ _ _ _ _ _ _ _ D (args_grows _ _ _ _ (z_grows Z) R) (args_next _ _ _ _ (z_names _ _ _ _ _ _ _ Z) A) H) as (l & Pl & D2 & V2).
  exists P, l, t', W'. split; [exact Pr|]. split; [exact Pl|]. split; [exact D2|congruence].
Qed.
Lemma make_ok p l vs s x s' g t W : make_predication self p l s = Ok (x, s') -> cov p = true -> ctx g s -> closed g -> said t s W -> Forall2 (rthing (s_heap s)) l vs -> (forall v, In v vs -> var_in g t v) ->
  exists P t' W', predicates U ol g t p P t' /\ did g t s W s' t' W' x (said_of P (row_of (map Some vs))) /\ s_vars s' = s_vars s.
Proof.
  intros H Fo C K S R A. unfold make_predication, predication in H. minv H. destruct (c_pred _ IH _ _ _ _ _ _ _ E Fo C K S) as (P & t' & W' & Pr & D & V & _).
  assert (G := D). destruct G as (X & Z & _).
  destruct (did_make _ _ _ _ _ _ _ _ _ _ vs _ _ D ltac:(eapply forall2_weak; [exact R|]; intros; eapply thing_grows; [exact (z_grows Z)|assumption])
    ltac:(intros v J; eapply var_next; [apply incl_refl|exact (z_names _ _ _ _ _ _ _ Z)|auto]) H) as (D2 & V2).
  exists P, t', W'. split; [exact Pr|]. split; [exact D2|congruence].
Qed.

Lemma statement_ok a n s x s' g t W ta : do_statement U self a n s = Ok (x, s') -> cov n = true -> ctx g s -> closed g -> said t s W -> rargs (s_heap s) a ta -> args_in g t ta ->
  exists F t' W', states U ol g t ta n F t' /\ did g t s W s' t' W' x F /\ s_vars s' = s_vars s.
Proof.
  intros H Fo C K S R A. unfold do_statement in H. apply with_vars_inv in H. destruct H as (s1 & H & ->).
  assert (Go : (exists F t' W', states U ol g t ta n F t' /\ did g t s W s1 t' W' x F) -> exists F t' W', states U ol g t ta n F t' /\ did g t s W (with_vs s1 (s_vars s)) t' W' x F /\ s_vars (with_vs s1 (s_vars s)) = s_vars s).
  { intros (F & t' & W' & B & D). exists F, t', W'. split; [exact B|]. split; [apply did_with, D|reflexivity]. }
  apply Go. destruct n; try discriminate; cbn [covered] in Fo.
  - destruct n1; try discriminate. cbn [covered] in Fo. andb. minv H. minv H. subst.
    destruct (c_pren _ IH _ _ _ _ _ _ _ _ _ _ _ _ E ltac:(assumption) ltac:(assumption) C K S R A) as (F & t' & W' & B & D & _). exists F, t', W'. split; [econstructor; exact B|exact D].
  - destruct ts as [ts|].
    + andb. destruct (c_stmt _ IH _ _ _ _ _ g t W ta H) as (F & t' & W' & B & D & _); try assumption.
      { cbn [covered]. rewrite andb_true_r. apply andb_true_intro. auto. }
      inversion B; subst. rewrite pa_text in *. exists F, t', W'. split; [econstructor; eassumption|exact D].
    + rewrite andb_true_r in Fo. destruct (predication_ok _ _ _ _ _ _ _ _ _ H Fo C K S R A) as (P & l & t' & W' & B & Pl & D & _). eexists _, t', W'. split; [econstructor; eassumption|exact D].
  - destruct k; try discriminate. andb. minv H. lift_conn E. minv H. minv H. minv H. minv H. apply assert_ok in E, E1. destruct E as [-> ->], E1 as [-> ->].
    destruct (c_stmt _ IH _ _ _ _ _ _ _ _ _ E0 ltac:(assumption) C K S R A) as (F1 & t1 & W1 & A1 & D1 & V1).
    destruct (did_args _ _ _ _ _ _ _ _ _ _ _ D1 R A) as (R1 & Ai1).
    destruct (c_stmt _ IH _ _ _ _ _ _ _ _ _ E2 ltac:(assumption) (did_ctx _ _ _ _ _ _ _ _ _ D1 V1 C) K (did_said _ _ _ _ _ _ _ _ _ D1) R1 Ai1) as (F2 & t2 & W2 & A2 & D2 & V2).
    destruct (did_conn _ _ _ _ _ _ _ _ _ _ _ _ _ _ _ _ _ D1 D2 H) as (D3 & V3). eexists _, t2, W2. split; [econstructor; eassumption|exact D3].
Qed.

(** Predicates. *)
Lemma set_scope_bind b y s u s' q n f rs : set_scope b y s = Ok (u, s') -> nth_error (s_heap s) b = Some (CBinding q n f rs None) -> bind_scope 1 (Some b) y s = Ok (b, s').
Proof.
  intros H B. cbn [bind_scope bind_scope_fuel]. unfold mbind. unfold get_binding at 1. unfold mbind, get, lift. rewrite B. cbn. destruct u. unfold set_scope in H |- *. unfold mbind in *. 
  destruct (get_binding b s) as [[c s0]| |]; try discriminate. rewrite H. reflexivity.
Qed.
Lemma lambda_done s t W s1 t1 W1 b x k g g' s2 t2 W2 y F z s3 r s4 : steps s t W [b] s1 t1 W1 -> nth_error (s_heap s1) b = Some (CBinding QLambda x false None None) ->
  did g' t1 s1 W1 s2 t2 W2 y F -> bnames g' = x :: bnames g -> bind_scope k (Some b) y s2 = Ok (z, s3) -> alloc (CAbstraction z) s3 = Ok (r, s4) ->
  didp g t s W s4 t2 W2 (PPred r) (Single (Abstract (Binds QLambda x false F))) /\ s_vars s4 = s_vars s2.
Proof.
  intros S B (X & S2 & A & Fi) E H3 H4. destruct (scope_at _ _ _ _ _ _ _ _ _ (Some (QLambda, x, None)) false _ _ _ _ _ _ _ _ S ltac:(constructor; exact B) S2 A H3) as (S3 & A3 & V3).
  destruct (steps_alloc _ _ _ _ _ _ H4 eq_refl (z_now S3)) as (S4 & N4 & V4). split; [|congruence]. exists (r :: [b] ++ X). split; [|split].
  - eapply steps_sub; [exact (z_trans S3 S4)|]. intros i. count i.
  - cbn [at_pc]. econstructor; [exact N4|]. eapply grows_f; [exact (z_grows S4)|exact A3].
  - cbn [fine_pc events_p events fine]. eapply fine_weak; [exact Fi|]. intros v [J|J]; [rewrite E in J; destruct J as [<-|J]; [right; reflexivity|left; left; exact J]|left; right; exact J].
Qed.

Lemma po_of_pred po nm : po_pred U po = Ok nm -> po_of U po = Some nm.
Proof. unfold po_pred, po_of, listed. cbn [find fst option_map snd]. destruct (has_text U po "po"); cbn [option_map snd]; [congruence|]. destruct (has_text U po "jei"); cbn [option_map snd]; congruence. Qed.

Definition with_hoa (s : st) (l : list ref) : st := St (s_heap s) (s_n s) (s_the s) (s_hi s) (s_lifted s) l (s_vars s).
Lemma push_hoa_ok b s u s' : push_hoa b s = Ok (u, s') -> s' = with_hoa s (b :: s_hoa s).
Proof. intros H. inversion H. reflexivity. Qed.
Lemma pop_hoa_ok s u s' : pop_hoa s = Ok (u, s') -> s' = with_hoa s (tl (s_hoa s)).
Proof. intros H. inversion H. reflexivity. Qed.
Lemma ctx_push g s b x : ctx g s -> num (s_heap s) b x -> ctx (about g x) (with_hoa s (b :: s_hoa s)).
Proof. intros [V H B] N. split; [exact V|constructor; exact N|exact B]. Qed.
Lemma content_pred_ok n s y s1 z s2 g t W : self _ (KSubordinate n) s = Ok (y, s1) -> make_content_pred y s1 = Ok (z, s2) -> cov n = true -> ctx g s -> closed g -> said t s W ->
  exists F t' W', states U ol g t [] n F t' /\ didp g t s W s2 (up_to t' (S (n_next t'))) W' (PPred z) (Single (being (n_next t') (That F))) /\ s_vars s2 = s_vars s.
Proof.
  intros E H Fo C K Sa. destruct (c_sub _ IH _ _ _ _ _ _ _ E Fo C K Sa) as (F & t1 & W1 & A & D & V). exists F, t1, W1. split; [exact A|]. destruct D as (X & S1 & A1 & Fi).
  destruct (content_at _ _ _ _ _ _ _ _ H (z_now S1) A1) as (N & X' & S2 & A2 & Cn & V2). split; [|congruence]. exists X'. split; [|split; [exact A2|apply fine_being; exact Fi]].
  eapply steps_sub; [exact (z_trans S1 S2)|]. intros i. specialize (Cn i). count i.
Qed.
Lemma no_abs n : no_abstraction n = true -> cov n = true.
Proof. induction n; try discriminate; cbn [no_abstraction covered]; intros H; auto. destruct k; try discriminate. andb. apply andb_true_intro. auto. Qed.

Lemma predicate_ok n s p s' g t W : do_predicate U ol vf self n s = Ok (p, s') -> cov n = true -> ctx g s -> closed g -> said t s W ->
  exists P t' W', predicates U ol g t n P t' /\ didp g t s W s' t' W' p P /\ s_vars s' = s_vars s /\ (no_abstraction n = true -> plainly P <> None).
Proof.
  intros H Fo C K S. destruct n; try discriminate; cbn [covered] in Fo; cbn [no_abstraction].
  - (* serial *) cbn [do_predicate] in H. andb. minv H. minv H. minv H. minv H. apply assert_ok in E, E1. destruct E as [-> ->], E1 as [-> ->].
    destruct (c_pred _ IH _ _ _ _ _ _ _ E0 ltac:(auto using no_abs) C K S) as (P1 & t1 & W1 & A1 & D1 & V1 & X1). specialize (X1 ltac:(assumption)). destruct (plainly P1) as [q1|] eqn:Q1; [|congruence].
    destruct D1 as (Y1 & S1 & B1 & Fi1).
    destruct (c_pred _ IH _ _ _ _ _ _ _ E2 ltac:(auto using no_abs) (ctx_ran _ _ _ C (z_ran _ _ _ _ _ _ _ S1) V1) K (z_now S1)) as (P2 & t2 & W2 & A2 & D2 & V2 & X2). specialize (X2 ltac:(assumption)). destruct (plainly P2) as [q2|] eqn:Q2; [|congruence].
    destruct D2 as (Y2 & S2 & B2 & Fi2). destruct (plain_pc _ _ _ _ _ B1 Q1) as (-> & R1). destruct (plain_pc _ _ _ _ _ B2 Q2) as (-> & R2).
    destruct (serial_left_read _ _ _ _ _ _ _ _ _ _ H (grows_refl _) (pred_grows _ _ (z_grows S2) _ _ R1) R2 (z_now S2)) as (R3 & S3 & V3).
    exists (of_plain (serial q1 q2)), t2, W2. split; [econstructor; eassumption|]. split; [|split; [congruence|intros _; rewrite plainly_of; discriminate]].
    exists []. split; [exact (z_trans (z_trans S1 S2) S3)|]. split; [apply of_plain_pc, R3|]. apply plain_fine. intros x J. destruct (serial_names _ _ _ J) as [J'|J'].
    + eapply inS_next; [exact (z_names _ _ _ _ _ _ _ S2)|]. eapply fine_plain; [exact Q1|exact Fi1|exact J'].
    + eapply fine_plain; [exact Q2|exact Fi2|exact J'].
  - (* word *) cbn [do_predicate] in H. destruct (is_variable U ol (NWordPredicate w)) as [v|] eqn:Ev; [|destruct (is_hoa U (NWordPredicate w)) eqn:Eh].
    + minv H. minv H. minv H. subst. destruct (lookup_at _ _ _ _ _ _ E (k_vars _ _ C) _ _ _ _ S E0) as (th & i & L & T & S1 & V1 & J).
      eexists _, _, W. split; [eapply PVariable; eassumption|]. split; [exists []; split; [exact S1|split; [constructor; constructor; exact T|]]|split; [exact V1|discriminate]].
      cbn [fine_pc events_p]. apply fine_inr. destruct th as [y fo|y]; cbn; [|tauto]. intros z [<-|[]]. left. eapply c_vars; eassumption.
    + minv H. injection E as <- <-. destruct (s_hoa s) as [|d l] eqn:Es.
      * minv H. minv H. minv H. subst. destruct (steps_free _ _ _ _ _ _ _ E E0 S) as (S1 & T & V1). assert (Hn := k_hoa _ _ C). rewrite Es in Hn. inversion Hn.
        eexists _, _, W. split; [eapply PHoaUnbound; auto|]. split; [exists []; split; [exact S1|split; [constructor; constructor; exact T|exact I]]|split; [exact V1|discriminate]].
      * minv H. minv H. minv H. subst. apply get_binding_ok in E. destruct E as [-> B]. destruct (steps_leaf _ _ _ _ _ _ E0 eq_refl S) as (S1 & N1 & V1).
        assert (Hn := k_hoa _ _ C). rewrite Es in Hn. cbn [hd_error] in Hn. inversion Hn as [|d' y Nm E1 E2]; subst. assert (Ey : y = b_n a) by (destruct Nm as (q1 & f1 & rs1 & sc1 & Nm); congruence). subst y.
        eexists _, _, W. split; [eapply PHoa; eauto|]. split; [|split; [exact V1|discriminate]].
        exists []. split; [exact S1|]. split; [constructor; constructor; econstructor; [exact N1|eapply num_grows; [exact (z_grows S1)|exact Nm]]|]. cbn. split; [left; eapply c_hoa; eauto|exact I].
    + minv H. minv H. subst. destruct (steps_leaf _ _ _ _ _ _ E eq_refl S) as (S1 & N1 & V1). eexists _, _, W. split; [eapply PNamed; assumption|].
      split; [exists []; split; [exact S1|split; [constructor; constructor; exact N1|exact I]]|split; [exact V1|discriminate]].
  - (* shu *) cbn [do_predicate] in H. minv H. minv H. destruct (steps_leaf _ _ _ _ _ _ E eq_refl S) as (S1 & N1 & V1). unfold lift in E0. destruct (mi_pred U mi) as [m| |] eqn:Em; try discriminate. injection E0 as <- <-.
    unfold mi_pred in Em. destruct (has_text U mi "mi") eqn:Mi; [discriminate|]. destruct (has_text U mi "shu") eqn:Shu; [|discriminate]. injection Em as <-. minv H. minv H. minv H. subst.
    destruct (steps_leaf _ _ _ _ _ _ E0 eq_refl (z_now S1)) as (S2 & N2 & V2).
    destruct (lambda_at _ _ (Quoted (to_string U n) false) [] _ _ _ _ _ E1 (z_now S2) N2 ltac:(constructor; apply (z_grows S2), N1)) as (N & X' & S3 & A3 & Cn & V3).
    eexists _, _, W. split; [eapply PShu; assumption|]. split; [|split; [congruence|discriminate]]. exists X'. split; [|split; [exact A3|apply fine_being; exact I]].
    eapply steps_sub; [exact (z_trans (z_trans S1 S2) S3)|]. intros i. specialize (Cn i). count i.
  - (* po *) cbn [do_predicate] in H. minv H. minv H. subst. unfold po_predicate in E. minv E. unfold lift in E0. destruct (po_pred U po) as [nm| |] eqn:Ep; try discriminate. injection E0 as <- <-. apply po_of_pred in Ep.
    minv E. minv E. minv E. minv E. destruct (steps_leaf _ _ _ _ _ _ E0 eq_refl S) as (S1 & N1 & V1).
    destruct (steps_new (fun x => CBinding QLambda x false None None) _ _ _ _ _ _ _ E1 E2 ltac:(eauto 6) (z_now S1)) as (S2 & -> & N2 & V2).
    destruct (steps_leaf _ _ _ _ _ _ E3 eq_refl (z_now S2)) as (S3 & N3 & V3). minv E. minv E. 
    assert (S23 := z_trans S2 S3). assert (S13 := z_trans S1 S23). cbn [app] in S13, S23.
    assert (C3 : ctx g s3) by (eapply ctx_ran; [exact C|exact (z_ran _ _ _ _ _ _ _ S13)|congruence]).
    destruct (c_po _ IH _ _ _ _ _ _ (in_scope g (n_next t) true) (up_to t (Datatypes.S (n_next t))) W nm (n_next t) E4) as (F & t' & W' & A & D & V).
    all: try eassumption. { eapply ctx_scope; [exact C3|apply (z_grows S3), N2|reflexivity]. } { apply closed_scope, K. } { exact (z_now S3). } { apply (z_grows S23), N1. }
    { econstructor; [exact N3|]. eexists _, _, _, _. apply (z_grows S3). exact N2. } { left. left. reflexivity. }
    assert (B4 : nth_error (s_heap s4) a2 = Some (CBinding QLambda (n_next t) false None None)) by (eapply did_nth; [exact D|]; apply (z_grows S3), N2).
    destruct (lambda_done _ _ _ _ _ _ _ _ _ g _ _ _ _ _ _ _ _ _ _ S13 ltac:(apply (z_grows S3), N2) D eq_refl (set_scope_bind _ _ _ _ _ _ _ _ _ E5 B4) E) as (D5 & V5).
    eexists _, _, W'. split; [eapply PPo; eassumption|]. split; [exact D5|]. split; [congruence|discriminate].
  - (* mo *) cbn [do_predicate] in H. minv H. minv H. minv H. minv H. subst.
    destruct (steps_leaf _ _ _ _ _ _ E eq_refl S) as (S1 & N1 & V1). destruct (steps_leaf _ _ _ _ _ _ E0 eq_refl (z_now S1)) as (S2 & N2 & V2).
    destruct (lambda_at _ _ (Quoted (to_string U (NDiscourse d)) true) [] _ _ _ _ _ E1 (z_now S2) ltac:(apply (z_grows S2), N1) ltac:(constructor; exact N2)) as (N & X' & S3 & A3 & Cn & V3).
    eexists _, _, W. split; [eapply PMo|]. split; [|split; [congruence|discriminate]]. exists X'. split; [|split; [exact A3|apply fine_being; exact I]].
    eapply steps_sub; [exact (z_trans (z_trans S1 S2) S3)|]. intros i. specialize (Cn i). count i.
  - (* content *) cbn [do_predicate] in H. minv H. minv H. minv H. subst. destruct (content_pred_ok _ _ _ _ _ _ _ _ _ E E0 Fo C K S) as (F & t1 & W1 & A & D & V).
    eexists _, _, W1. split; [eapply PContent; eassumption|]. split; [exact D|]. split; [exact V|discriminate].
  - (* connections *) assert (Hk : (k = CPredicate \/ k = CContent) /\ (do c <- lift (connector U ru); do l <- assert AstSorts.predicates n1; do x <- self _ (KPredicate l); do r <- assert AstSorts.predicates n2; do y <- self _ (KPredicate r); ret (PConn c x y)) s = Ok (p, s')) by (destruct k; try discriminate H; auto).
    clear H. destruct Hk as (Hk & H). andb. minv H. lift_conn E. minv H. minv H. minv H. minv H. minv H. subst. apply assert_ok in E, E1. destruct E as [-> ->], E1 as [-> ->].
    destruct (c_pred _ IH _ _ _ _ _ _ _ E0 ltac:(assumption) C K S) as (P1 & t1 & W1 & A1 & D1 & V1 & X1). destruct D1 as (Y1 & S1 & B1 & Fi1).
    destruct (c_pred _ IH _ _ _ _ _ _ _ E2 ltac:(assumption) (ctx_ran _ _ _ C (z_ran _ _ _ _ _ _ _ S1) V1) K (z_now S1)) as (P2 & t2 & W2 & A2 & D2 & V2 & X2). destruct D2 as (Y2 & S2 & B2 & Fi2).
    eexists _, t2, W2. split; [eapply PJoined; eassumption|]. split; [|split; [congruence|]].
    + exists (Y1 ++ Y2). split; [exact (z_trans S1 S2)|]. split; [cbn [at_pc]; split; [reflexivity|]; exists Y1, Y2; split; [reflexivity|]; split; [eapply grows_pc; [exact (z_grows S2)|exact B1]|exact B2]|].
      cbn [fine_pc]. split; [|exact Fi2]. eapply fine_pc_weak; [|exact Fi1]. intros x. apply inS_next. exact (z_names _ _ _ _ _ _ _ S2).
    + destruct k; try discriminate. intros Na. andb. cbn [plainly]. specialize (X1 ltac:(assumption)). specialize (X2 ltac:(assumption)). destruct (plainly P1); [|congruence]. destruct (plainly P2); [|congruence]. discriminate.
  - (* clauses *) destruct k; try discriminate; cbn [do_predicate] in H.
    + destruct (has_text U lu "lu") eqn:Lu.
      * minv H. minv H. minv H. minv H. minv H. minv H. minv H. minv H. subst.
        destruct (steps_new (fun x => CBinding QLambda x false None None) _ _ _ _ _ _ _ E E0 ltac:(eauto 6) S) as (S1 & -> & N1 & V1).
        apply push_hoa_ok in E1. subst s2. set (s2 := with_hoa s1 (a0 :: s_hoa s1)) in *. set (s0' := with_hoa s (a0 :: s_hoa s)).
        assert (S2 : steps s0' t W [a0] s2 (up_to t (Datatypes.S (n_next t))) W) by (eapply steps_around; [exact S1|try reflexivity..]; [cbn; rewrite (r_hoa _ _ (z_ran _ _ _ _ _ _ _ S1)); reflexivity|exact (r_hi _ _ (z_ran _ _ _ _ _ _ _ S1))]).
        assert (C1 : ctx g s1) by (eapply ctx_ran; [exact C|exact (z_ran _ _ _ _ _ _ _ S1)|exact V1]).
        destruct (c_sub _ IH _ _ _ _ (about (in_scope g (n_next t) true) (n_next t)) (up_to t (Datatypes.S (n_next t))) W E2 Fo) as (F & t1 & W1 & A & D & V).
        { eapply ctx_push; [eapply ctx_scope; [exact C1|exact N1|reflexivity]|eexists _, _, _, _; exact N1]. } { apply closed_about; [apply closed_scope, K|left; reflexivity]. } { exact (z_now S2). }
        destruct (lambda_done _ _ _ _ _ _ _ _ _ g _ _ _ _ _ _ _ _ _ _ S2 N1 D eq_refl E3 E4) as (D5 & V5).
        apply pop_hoa_ok in E5. subst s'. eexists _, _, W1. split; [eapply PLu; eassumption|]. split; [|split; [cbn [s_vars with_hoa]; rewrite V5, V; exact V1|discriminate]].
        destruct D5 as (X & S5 & A5 & Fi5). exists X. split; [|auto]. assert (R5 := z_ran _ _ _ _ _ _ _ S5). eapply steps_around; [exact S5|try reflexivity..]; [cbn; rewrite (r_hoa _ _ R5); reflexivity|exact (r_hi _ _ R5)].
      * minv H. minv H. minv H. subst. destruct (c_sub _ IH _ _ _ _ _ _ _ E Fo C K S) as (F & t1 & W1 & A & D & V). destruct D as (X & S1 & A1 & Fi). destruct (steps_alloc _ _ _ _ _ _ E0 eq_refl (z_now S1)) as (S2 & N2 & V2).
        eexists _, t1, W1. split; [eapply PLi; eassumption|]. split; [|split; [congruence|discriminate]]. exists (a0 :: X). split; [eapply steps_sub; [exact (z_trans S1 S2)|]; intros i; count i|].
        split; [|exact Fi]. cbn [at_pc]. econstructor; [exact N2|]. eapply grows_f; [exact (z_grows S2)|exact A1].
    + minv H. minv H. minv H. subst. destruct (content_pred_ok _ _ _ _ _ _ _ _ _ E E0 Fo C K S) as (F & t1 & W1 & A & D & V).
      eexists _, _, W1. split; [eapply PLa; eassumption|]. split; [exact D|]. split; [exact V|discriminate].
Qed.

(** Arguments that are not connected, and connections. *)
Lemma argument_ok {B} n u (one : option ref -> ref -> Interp.M B) two s y s' g t W : argument_case U self n u one two s = Ok (y, s') -> cov n = true -> ctx g s -> closed g -> said t s W ->
  (exists bo x s1 b v g' t1 W1, one bo x s1 = Ok (y, s') /\ refers U ol g t n b v g' t1 /\ dida g t s W s1 t1 W1 bo x b v false g') \/
  (exists f m ru l r, n = NCoP CArgument f m ru l r /\ has_text U ru "roi" = false /\ two ru l r s = Ok (y, s') /\ cov l = true /\ cov r = true).
Proof.
  intros H Fo C K S. destruct n; try discriminate.
  - left. cbn [argument_case] in H. minv H. destruct (c_arg _ IH _ _ _ _ _ _ _ _ _ _ _ E Fo C K S) as (b & v & g' & t1 & W1 & A & D). eexists _, _, _, b, v, g', t1, W1. split; [exact H|]. split; [constructor; exact A|exact D].
  - destruct k; try discriminate. cbn [argument_case] in H. cbn [covered] in Fo. andb. destruct (has_text U ru "roi") eqn:Roi; [left|right; eauto 12].
    minv H. destruct (c_roi _ IH _ _ _ _ _ _ _ _ _ E ltac:(assumption) ltac:(assumption) C K S) as (b & v & g' & t1 & W1 & A & D). eexists _, _, _, b, v, g', t1, W1. split; [exact H|]. split; [apply A; assumption|exact D].
Qed.
Lemma dida_facts g t s W s1 t1 W1 bo x b v fo g' : dida g t s W s1 t1 W1 bo x b v fo g' ->
  ctx g' s1 /\ closed g' /\ said t1 s1 W1 /\ rthing (s_heap s1) x v /\ var_in g' t1 v /\ incl (bnames g) (bnames g') /\ grows (s_heap s) (s_heap s1) /\ incl (onames t) (onames t1).
Proof. intros (X & S & B & T & I & C & K & Fi & In1 & In2). exact (conj C (conj K (conj (z_now S) (conj T (conj I (conj In1 (conj (z_grows S) (z_names _ _ _ _ _ _ _ S)))))))). Qed.

(** A predication of a named predicate and variables. *)
Lemma did_named p nm l vs s z s' g t W : alloc (CPredication p (map Some l)) s = Ok (z, s') -> nth_error (s_heap s) p = Some (CPred nm) -> Forall2 (rthing (s_heap s)) l vs -> (forall v, In v vs -> var_in g t v) -> said t s W ->
  did g t s W s' t W z (named nm (row_of (map Some vs))) /\ s_vars s' = s_vars s.
Proof.
  intros H N T I S. destruct (steps_alloc _ _ _ _ _ _ H eq_refl S) as (S1 & N1 & V1). split; [|exact V1]. exists [z]. split; [exact S1|]. split.
  - apply (AtSays _ z p (map Some l) (Simple (Named nm)) (row_of (map Some vs)) [] []); [exact N1|constructor; constructor; apply (z_grows S1), N|]. 
    apply row_at. clear - T S1. induction T; cbn [map]; constructor; [constructor; eapply thing_grows; [exact (z_grows S1)|assumption]|assumption].
  - unfold named. cbn [events events_p of_property map app]. rewrite events_row. apply fine_inr. intros x J. apply in_flat_map in J. destruct J as (o & J1 & J2). apply in_map_iff in J1. destruct J1 as (v & <- & Jv).
    cbn [olist flat_map] in J2. rewrite app_nil_r in J2. specialize (I _ Jv). destruct v; [|destruct J2]. destruct J2 as [<-|[]]. exact I.
Qed.

Lemma po_ok pred a0 a1 s x s' g t W nm y : po_argument U vf self pred a0 a1 s = Ok (x, s') -> cov a1 = true -> ctx g s -> closed g -> said t s W ->
  nth_error (s_heap s) pred = Some (CPred nm) -> rthing (s_heap s) a0 (Bound y false) -> inS g t y ->
  exists F t' W', po_says U ol g t nm y a1 F t' /\ did g t s W s' t' W' x F /\ s_vars s' = s_vars s.
Proof.
  intros H Fo C K S N T I. unfold po_argument in H. apply with_vars_inv in H. destruct H as (s1 & H & ->).
  destruct (argument_ok _ _ _ _ _ _ _ _ _ _ H Fo C K S) as [(bo & z & s2 & b & v & g' & t1 & W1 & H1 & R & D)|(f & m & ru & l & r & -> & Roi & H1 & Fl & Fr)]; clear H.
  - minv H1. destruct (dida_facts _ _ _ _ _ _ _ _ _ _ _ _ _ D) as (C1 & K1 & S1 & T1 & I1 & In1 & G1 & On1).
    destruct (did_named _ nm [a0; z] [Bound y false; v] _ _ _ g' t1 W1 E (G1 _ _ N)) as (D2 & V2).
    { constructor; [eapply thing_grows; eassumption|constructor; [exact T1|constructor]]. } { intros u [<-|[<-|[]]]; [|exact I1]. eapply var_next with (v := Bound y false); eassumption. } { exact S1. }
    destruct (dida_scope _ _ _ _ _ _ _ _ _ _ _ _ _ _ _ _ _ _ _ _ _ D D2 H1) as (D3 & V3). eexists _, _, _. split; [eapply PoOne; exact R|]. split; [apply did_with, D3|reflexivity].
  - minv H1. lift_conn E. minv H1. minv H1. minv H1. minv H1. apply assert_ok in E, E1. destruct E as [-> ->], E1 as [-> ->].
    destruct (c_po _ IH _ _ _ _ _ _ _ _ _ _ _ E0 Fl C K S N T I) as (F1 & t1 & W1 & A1 & D1 & V1).
    destruct (c_po _ IH _ _ _ _ _ _ _ _ _ _ _ E2 Fr (did_ctx _ _ _ _ _ _ _ _ _ D1 V1 C) K (did_said _ _ _ _ _ _ _ _ _ D1) (did_nth _ _ _ _ _ _ _ _ _ _ _ D1 N) (did_thing _ _ _ _ _ _ _ _ _ _ _ D1 T) (did_in _ _ _ _ _ _ _ _ _ _ D1 I)) as (F2 & t2 & W2 & A2 & D2 & V2).
    destruct (did_conn _ _ _ _ _ _ _ _ _ _ _ _ _ _ _ _ _ D1 D2 H1) as (D3 & V3). eexists _, t2, W2. split; [eapply PoJoined; eassumption|]. split; [apply did_with, D3|reflexivity].
Qed.

Lemma arg_move h h' g g' t t' a r : arg_case h g t a r -> grows h h' -> incl (bnames g) (bnames g') -> incl (onames t) (onames t') -> arg_case h' g' t' a r.
Proof.
  intros A G I J. destruct a as [v|a st bi ts], r as [x|ta st' keep ts']; try exact A; cbn [arg_case] in *.
  - destruct A as [A B]. split; [eapply thing_grows; eassumption|exact (var_next _ _ _ _ (Bound x false) I J B)].
  - destruct A as (A & B & Rest). split; [eapply args_grows; eassumption|]. split; [|exact Rest]. eapply args_scope; [exact I|]. eapply args_next; eassumption.
Qed.
Lemma arg_rest h g t a r ts : arg_case h g t a r -> forallb cov ts = true -> arg_case h g t (with_terms a ts) (with_rest r ts).
Proof. intros A F. destruct a as [v|a st bi ts0], r as [x|ta st' keep ts']; try exact A; cbn [arg_case with_terms with_rest] in *. tauto. Qed.
Lemma did_arg g t s W s' t' W' x F a r : did g t s W s' t' W' x F -> arg_case (s_heap s) g t a r -> arg_case (s_heap s') g t' a r.
Proof. intros (X & S & _) A. eapply arg_move; [exact A|exact (z_grows S)|apply incl_refl|exact (z_names _ _ _ _ _ _ _ S)]. Qed.

Lemma preposition_ok n a s x ts s' g t W r : do_preposition U self n a s = Ok (x, ts, s') -> cov n = true -> ctx g s -> closed g -> said t s W -> arg_case (s_heap s) g t a r ->
  exists F t' W', relates U ol g t n r F ts t' /\ did g t s W s' t' W' x F /\ s_vars s' = s_vars s /\ forallb cov ts = true.
Proof.
  intros H Fo C K S A. unfold do_preposition in H. apply with_vars_inv in H. destruct H as (s1 & H & ->). destruct n; try discriminate; cbn [covered] in Fo.
  - andb. destruct (c_by _ IH _ _ _ _ _ _ _ _ _ _ _ H ltac:(assumption) ltac:(assumption) C K S A) as (F & t' & W' & R & D & V & Ts). exists F, t', W'. split; [constructor; exact R|]. split; [apply did_with, D|auto].
  - destruct k; try discriminate. andb. minv H. lift_conn E. minv H. minv H. minv H. minv H. minv H. minv H. injection H as <- <-. subst. apply assert_ok in E, E1. destruct E as [-> ->], E1 as [-> ->].
    destruct (c_prep _ IH _ _ _ _ _ _ _ _ _ _ E0 ltac:(assumption) C K S A) as (F1 & t1 & W1 & A1 & D1 & V1 & Ts1).
    destruct (c_prep _ IH _ _ _ _ _ _ _ _ _ _ E2 ltac:(assumption) (did_ctx _ _ _ _ _ _ _ _ _ D1 V1 C) K (did_said _ _ _ _ _ _ _ _ _ D1) (arg_rest _ _ _ _ _ _ (did_arg _ _ _ _ _ _ _ _ _ _ _ D1 A) Ts1)) as (F2 & t2 & W2 & A2 & D2 & V2 & Ts2).
    destruct (did_conn _ _ _ _ _ _ _ _ _ _ _ _ _ _ _ _ _ D1 D2 E3) as (D3 & V3). eexists _, t2, W2. split; [eapply LJoined; eassumption|]. split; [apply did_with, D3|auto].
Qed.

Lemma adverb_ok n a s x s' g t W y : do_adverb U self n a s = Ok (x, s') -> cov n = true -> ctx g s -> closed g -> said t s W -> rthing (s_heap s) a (Bound y false) -> inS g t y ->
  exists F t' W', modifies U ol g t n y F t' /\ did g t s W s' t' W' x F /\ s_vars s' = s_vars s.
Proof.
  intros H Fo C K S T I. unfold do_adverb in H. apply with_vars_inv in H. destruct H as (s1 & H & ->). destruct n; try discriminate; cbn [covered] in Fo.
  - destruct (make_ok _ _ [Bound y false] _ _ _ _ _ _ H Fo C K S) as (P & t' & W' & A & D & V); [constructor; [exact T|constructor]|intros v [<-|[]]; exact I|].
    eexists _, t', W'. split; [eapply AAdverb; exact A|]. split; [apply did_with, D|reflexivity].
  - destruct k; try discriminate. andb. minv H. lift_conn E. minv H. minv H. minv H. minv H. apply assert_ok in E, E1. destruct E as [-> ->], E1 as [-> ->].
    destruct (c_adv _ IH _ _ _ _ _ _ _ _ _ E0 ltac:(assumption) C K S T I) as (F1 & t1 & W1 & A1 & D1 & V1).
    destruct (c_adv _ IH _ _ _ _ _ _ _ _ _ E2 ltac:(assumption) (did_ctx _ _ _ _ _ _ _ _ _ D1 V1 C) K (did_said _ _ _ _ _ _ _ _ _ D1) (did_thing _ _ _ _ _ _ _ _ _ _ _ D1 T) (did_in _ _ _ _ _ _ _ _ _ _ D1 I)) as (F2 & t2 & W2 & A2 & D2 & V2).
    destruct (did_conn _ _ _ _ _ _ _ _ _ _ _ _ _ _ _ _ _ D1 D2 H) as (D3 & V3). eexists _, t2, W2. split; [eapply AJoined; eassumption|]. split; [apply did_with, D3|reflexivity].
Qed.

(** A binding of a variable to a clause. *)
Lemma fine_named g g' t x l : bnames g' = x :: bnames g -> fine (inS g' t) l -> fine (inS g t) (inl x :: l).
Proof. intros E H. cbn [fine]. eapply fine_weak; [exact H|]. intros y [J|J]; [rewrite E in J; destruct J as [<-|J]; [right; reflexivity|left; left; exact J]|left; right; exact J]. Qed.
Lemma clause_dida g t s W s1 t1 W1 sub F q s2 b a u s3 : did g t s W s1 t1 W1 sub F -> new_binding q false s1 = Ok (b, a, s2) -> restrict_content b a sub s2 = Ok (u, s3) ->
  ctx g s -> closed g -> s_vars s1 = s_vars s ->
  dida g t s W s3 (up_to t1 (S (S (n_next t1)))) W1 (Some b) a (Some (q, n_next t1, Some (is_clause (n_next t1) (S (n_next t1)) F))) (Bound (n_next t1) false) false (in_scope g (n_next t1) (counted q)) /\
  s_vars s3 = s_vars s.
Proof.
  intros D H1 H2 C K V. destruct (bset_content _ _ _ _ _ _ _ _ _ _ _ _ _ _ _ D H1 H2) as (r & B & V3 & T). assert (V' : s_vars s3 = s_vars s) by congruence. split; [|exact V'].
  destruct (bset_ctx _ _ _ _ _ _ _ _ _ _ _ _ _ B C V') as (C3 & C4). eapply dida_bset; try eassumption; [apply closed_scope, K|reflexivity|].
  eapply fine_named with (g' := in_scope g (n_next t1) true); [reflexivity|]. destruct D as (X & S & A & Fi). apply fine_clause; [eapply fine_weak; [exact Fi|]; intros y [J|J]; [left; right; exact J|right; exact J]|left; left; reflexivity].
Qed.

Lemma by_ok p a n s x ts s' g t W r : pred_preposition U vf self p a n s = Ok (x, ts, s') -> cov p = true -> cov n = true -> ctx g s -> closed g -> said t s W -> arg_case (s_heap s) g t a r ->
  exists F t' W', relates_by U ol g t p r n F ts t' /\ did g t s W s' t' W' x F /\ s_vars s' = s_vars s /\ forallb cov ts = true.
Proof.
  intros H Fp Fo C K S A. unfold pred_preposition in H. apply with_vars_inv in H. destruct H as (s1 & H & ->).
  destruct (argument_ok _ _ _ _ _ _ _ _ _ _ H Fo C K S) as [(bo & z & s2 & b & v & g' & t1 & W1 & H1 & R & D)|(f & m & ru & l & rr & -> & Roi & H1 & Fl & Fr)]; clear H.
  - destruct (dida_facts _ _ _ _ _ _ _ _ _ _ _ _ _ D) as (C1 & K1 & S1 & T1 & I1 & In1 & G1 & On1). assert (A1 := arg_move _ _ _ _ _ _ _ _ A G1 In1 On1). clear A.
    destruct a as [w|a st bi ts0], r as [y|ta st' keep ts']; try contradiction; cbn [arg_case] in A1.
    + destruct A1 as [Tw Iw]. minv H1. minv H1. minv H1. injection H1 as <- <-. subst.
      destruct (make_ok _ _ [Bound y false; v] _ _ _ _ _ _ E Fp C1 K1 S1) as (P & t2 & W2 & Pr & D2 & V2); [repeat (constructor; [assumption|]); constructor|intros u [<-|[<-|[]]]; assumption|].
      destruct (dida_scope _ _ _ _ _ _ _ _ _ _ _ _ _ _ _ _ _ _ _ _ _ D D2 E0) as (D3 & V3). eexists _, t2, W2. split; [eapply BVar; eassumption|]. split; [apply did_with, D3|auto].
    + destruct A1 as (Ra & Ai & -> & -> & -> & Fst & Fts). minv H1. minv H1. minv H1. minv H1. minv H1. minv H1. minv H1. injection H1 as <- <-. subst.
      destruct (c_pren _ IH _ _ _ _ _ _ _ _ _ _ _ _ E Fst Fts C1 K1 S1 Ra Ai) as (F & t2 & W2 & Fr & D2 & V2 & Ts2).
      destruct (clause_dida _ _ _ _ _ _ _ _ _ _ _ _ _ _ _ D2 E0 E1 C1 K1 V2) as (D3 & V3). destruct (dida_facts _ _ _ _ _ _ _ _ _ _ _ _ _ D3) as (C4 & K4 & S4 & T4 & I4 & In4 & G4 & On4).
      destruct (make_ok _ _ [Bound (n_next t2) false; v] _ _ _ _ _ _ E2 Fp C4 K4 S4) as (P & t3 & W3 & Pr & D5 & V5).
      { constructor; [exact T4|constructor; [eapply thing_grows; eassumption|constructor]]. } { intros u [<-|[<-|[]]]; [exact I4|]. eapply var_next; eassumption. }
      destruct (dida_scope _ _ _ _ _ _ _ _ _ _ _ _ _ _ _ _ _ _ _ _ _ D3 D5 E3) as (D6 & V6).
      destruct (dida_scope _ _ _ _ _ _ _ _ _ _ _ _ _ _ _ _ _ _ _ _ _ D D6 E4) as (D7 & V7).
      eexists _, t3, W3. split; [eapply BRest; eassumption|]. split; [apply did_with, D7|auto].
  - minv H1. lift_conn E. minv H1. minv H1. minv H1. minv H1. minv H1. minv H1. injection H1 as <- <-. subst. apply assert_ok in E, E1. destruct E as [-> ->], E1 as [-> ->].
    destruct (c_by _ IH _ _ _ _ _ _ _ _ _ _ _ E0 Fp Fl C K S A) as (F1 & t1 & W1 & A1 & D1 & V1 & Ts1).
    destruct (c_by _ IH _ _ _ _ _ _ _ _ _ _ _ E2 Fp Fl (did_ctx _ _ _ _ _ _ _ _ _ D1 V1 C) K (did_said _ _ _ _ _ _ _ _ _ D1) (arg_rest _ _ _ _ _ _ (did_arg _ _ _ _ _ _ _ _ _ _ _ D1 A) Ts1)) as (F2 & t2 & W2 & A2 & D2 & V2 & Ts2).
    destruct (did_conn _ _ _ _ _ _ _ _ _ _ _ _ _ _ _ _ _ D1 D2 E3) as (D3 & V3). eexists _, t2, W2. split; [eapply BJoined; eassumption|]. split; [apply did_with, D3|auto].
Qed.

(** roi. *)
Lemma roi_ok l r s bo x s' g t W : do_roi self l r s = Ok (bo, x, s') -> cov l = true -> cov r = true -> ctx g s -> closed g -> said t s W ->
  exists b v g' t' W', (forall f m ru, has_text U ru "roi" = true -> refers U ol g t (NCoP CArgument f m ru l r) b v g' t') /\ dida g t s W s' t' W' bo x b v false g'.
Proof.
  intros H Fl Fr C K S. unfold do_roi in H. minv H. minv H. minv H. minv H. minv H. minv H. injection H as <- <-. subst. apply assert_ok in E0, E1. destruct E0 as [-> ->], E1 as [-> ->].
  destruct (steps_binding _ _ _ _ _ _ _ _ E S) as (S1 & N1 & T1 & V1). assert (C1 : ctx g s0) by (eapply ctx_ran; [exact C|exact (z_ran _ _ _ _ _ _ _ S1)|exact V1]).
  destruct (c_left _ IH _ _ _ _ _ _ (in_scope g (n_next t) false) (up_to t (Datatypes.S (n_next t))) W (n_next t) E2 Fl Fr) as (R & g' & t' & W' & A & D & C2 & K2 & In1 & In2).
  { eapply ctx_scope; [exact C1|exact N1|reflexivity]. } { apply closed_scope, K. } { exact (z_now S1). } { exact T1. } { left. left. reflexivity. }
  destruct (bset_restrict _ _ _ _ _ _ _ _ _ _ _ _ _ _ _ _ _ _ S1 N1 D E3) as ((Y & B1 & B2 & B3) & V3 & T3 & C3).
  exists (Some (QThe, n_next t, Some R)), (Bound (n_next t) false), g', t', W'. split; [intros f m ru Roi; econstructor; eassumption|].
  assert (J : In (n_next t) (bnames g')) by (apply In1; left; reflexivity).
  eexists. split; [exact B1|]. split; [econstructor; eassumption|]. split; [apply T3; eapply did_thing; [exact D|exact T1]|]. split; [left; exact J|]. split; [apply C3, C2|]. split; [exact K2|].
  split; [cbn [evb]; eapply fine_named with (g' := in_scope g (n_next t) false); [reflexivity|]; destruct D as (X & _ & _ & Fi); exact Fi|]. split; [intros y Jy; apply In1; right; exact Jy|].
  intros y Jy. destruct (In2 _ Jy) as [[<-|Jz]|Jz]; cbn [evb binders flat_map app]; auto. right. left. reflexivity. right. right. exact Jz.
Qed.
Lemma left_ok x l r s y s' g t W z : roi_left U vf self x l r s = Ok (y, s') -> cov l = true -> cov r = true -> ctx g s -> closed g -> said t s W -> rthing (s_heap s) x (Bound z false) -> inS g t z ->
  exists F g' t' W', both_left U ol g t z l r F g' t' /\ didr g t s W s' t' W' y F g'.
Proof.
  intros H Fl Fr C K S T I. unfold roi_left in H.
  destruct (argument_ok _ _ _ _ _ _ _ _ _ _ H Fl C K S) as [(bo & w & s2 & b & v & g' & t1 & W1 & H1 & R & D)|(f & m & ru & l1 & l2 & -> & Roi & H1 & F1 & F2)]; clear H.
  - minv H1. destruct (dida_facts _ _ _ _ _ _ _ _ _ _ _ _ _ D) as (C1 & K1 & S1 & T1 & I1 & In1 & G1 & On1).
    destruct (c_right _ IH _ _ _ _ _ _ _ _ _ _ _ E Fr C1 K1 S1 (thing_grows _ _ _ _ G1 T) (var_next _ _ _ _ (Bound z false) In1 On1 I) T1 I1) as (F & g2 & t2 & W2 & A & D2).
    eexists _, g2, t2, W2. split; [eapply LOne; eassumption|]. eapply didr_scope; eassumption.
  - minv H1. lift_conn E. minv H1. minv H1. minv H1. minv H1. apply assert_ok in E, E1. destruct E as [-> ->], E1 as [-> ->].
    destruct (c_left _ IH _ _ _ _ _ _ _ _ _ _ E0 F1 Fr C K S T I) as (G1 & g1 & t1 & W1 & A1 & D1). destruct D1 as (D1 & C1 & K1 & In1 & In2).
    destruct (c_left _ IH _ _ _ _ _ _ _ _ _ _ E2 F2 Fr C1 K1 (did_said _ _ _ _ _ _ _ _ _ D1) (did_thing _ _ _ _ _ _ _ _ _ _ _ D1 T) (var_next _ _ _ _ (Bound z false) In1 (incl_refl _) (did_in _ _ _ _ _ _ _ _ _ _ D1 I))) as (G2 & g2 & t2 & W2 & A2 & D2).
    eexists _, g2, t2, W2. split; [eapply LTwo; eassumption|]. eapply didr_conn; [exact (conj D1 (conj C1 (conj K1 (conj In1 In2))))|exact D2|exact H1].
Qed.
Lemma right_ok x l r s y s' g t W z v : roi_right U vf self x l r s = Ok (y, s') -> cov r = true -> ctx g s -> closed g -> said t s W ->
  rthing (s_heap s) x (Bound z false) -> inS g t z -> rthing (s_heap s) l v -> var_in g t v ->
  exists F g' t' W', both_right U ol g t z v r F g' t' /\ didr g t s W s' t' W' y F g'.
Proof.
  intros H Fr C K S T I Tl Il. unfold roi_right in H.
  destruct (argument_ok _ _ _ _ _ _ _ _ _ _ H Fr C K S) as [(bo & w & s2 & b & u & g' & t1 & W1 & H1 & R & D)|(f & m & ru & l1 & l2 & -> & Roi & H1 & F1 & F2)]; clear H.
  - minv H1. minv H1. minv H1. destruct (dida_facts _ _ _ _ _ _ _ _ _ _ _ _ _ D) as (C1 & K1 & S1 & T1 & I1 & In1 & G1 & On1).
    destruct (steps_alloc _ _ _ _ _ _ E eq_refl S1) as (S2 & N2 & V2). destruct (steps_leaf _ _ _ _ _ _ E0 eq_refl (z_now S2)) as (S3 & N3 & V3). destruct (steps_alloc _ _ _ _ _ _ E1 eq_refl (z_now S3)) as (S4 & N4 & V4).
    assert (S' := z_trans (z_trans S2 S3) S4). cbn [app] in S'. assert (G34 := z_grows (z_trans S3 S4)). assert (G' := z_grows S').
    assert (D2 : didr g' t1 s2 W1 s3 t1 W1 a1 (named "=" (Item (Var (Bound z false)) (Item (Several (Item (Var v) (Item (Var u) Nil))) Nil))) g').
    { split; [|split; [eapply ctx_ran; [exact C1|exact (z_ran _ _ _ _ _ _ _ S')|congruence]|split; [exact K1|split; [apply incl_refl|auto]]]].
      exists (a1 :: [a]). split; [eapply steps_sub; [exact S'|]; intros i; count i|]. split.
      - apply (AtSays _ a1 a0 [Some x; Some a] (Simple (Named "=")) _ [] [a]); [exact N4|constructor; constructor; apply (z_grows S4), N3|].
        apply (AtItem _ x [Some a] _ _ [] [a]); [constructor; eapply thing_grows; [exact G'|]; eapply thing_grows; [exact G1|exact T]|].
        apply (AtItem _ a [] _ _ [a] []); [|constructor]. apply (AtSeveral _ a [Some l; Some w] _ []); [apply G34, N2|].
        apply (AtItem _ l [Some w] _ _ [] []); [constructor; eapply thing_grows; [exact G'|]; eapply thing_grows; [exact G1|exact Tl]|].
        apply (AtItem _ w [] _ _ [] []); [constructor; eapply thing_grows; [exact G'|exact T1]|constructor].
      - assert (Iz := var_next _ _ _ _ (Bound z false) In1 On1 I). assert (Iv := var_next _ _ _ _ v In1 On1 Il).
        unfold named. cbn [events events_p of_property map app events_r events_t of_thing fine]. split; [exact Iz|]. rewrite !app_nil_r. apply fine_app'; apply fine_inr; [destruct v|destruct u]; cbn; try tauto; intros q [<-|[]]; assumption. }
    eexists _, g', t1, W1. split; [eapply GOne; eassumption|]. eapply didr_scope; eassumption.
  - minv H1. lift_conn E. minv H1. minv H1. minv H1. minv H1. apply assert_ok in E, E1. destruct E as [-> ->], E1 as [-> ->].
    destruct (c_right _ IH _ _ _ _ _ _ _ _ _ _ _ E0 F1 C K S T I Tl Il) as (G1 & g1 & t1 & W1 & A1 & D1). destruct D1 as (D1 & C1 & K1 & In1 & In2).
    destruct (c_right _ IH _ _ _ _ _ _ _ _ _ _ _ E2 F2 C1 K1 (did_said _ _ _ _ _ _ _ _ _ D1) (did_thing _ _ _ _ _ _ _ _ _ _ _ D1 T) (var_next _ _ _ _ (Bound z false) In1 (incl_refl _) (did_in _ _ _ _ _ _ _ _ _ _ D1 I))
      (did_thing _ _ _ _ _ _ _ _ _ _ _ D1 Tl)) as (G2 & g2 & t2 & W2 & A2 & D2).
    { destruct D1 as (X & S1 & _). eapply var_next; [exact In1|exact (z_names _ _ _ _ _ _ _ S1)|exact Il]. }
    eexists _, g2, t2, W2. split; [eapply GTwo; eassumption|]. eapply didr_conn; [exact (conj D1 (conj C1 (conj K1 (conj In1 In2))))|exact D2|exact H1].
Qed.

(** Relative clauses. *)
Lemma relative_ok bo n s x s' g g' t W : relative_clause U self bo n s = Ok (x, s') -> cov n = true -> ctx g s -> closed g -> hoa_case bo (s_heap s) g g' -> said t s W ->
  exists F t' W', says_clause U ol g' t n F t' /\ did g t s W s' t' W' x F /\ s_vars s' = s_vars s.
Proof.
  intros H Fo C K Hc S. unfold relative_clause in H. apply with_vars_inv in H. destruct H as (s1 & H & ->). minv H. minv H. minv H. minv H. subst.
  assert (P : ctx g' s0 /\ closed g' /\ v_bound g' = v_bound g /\ s0 = with_hoa s (match bo with None => s_hoa s | Some b => b :: s_hoa s end)).
  { destruct bo as [b|]; cbn [hoa_case] in Hc.
    - destruct Hc as (y & Ny & Jy & ->). apply push_hoa_ok in E. subst s0. split; [apply ctx_push; assumption|]. split; [apply closed_about; assumption|auto].
    - subst g'. minv E. subst s0. destruct s. auto. }
  destruct P as (C1 & K1 & Bo & Es0).
  assert (S1 : said t s0 W) by (eapply said_same; [..|exact S]; rewrite Es0; reflexivity).
  assert (Q : exists F t' W', says_clause U ol g' t n F t' /\ did g' t s0 W s2 t' W' x F).
  { clear E1. destruct n; try discriminate; cbn [covered] in Fo.
    - destruct (c_sub _ IH _ _ _ _ _ _ _ E0 Fo C1 K1 S1) as (F & t' & W' & A & D & V). exists F, t', W'. split; [constructor; exact A|exact D].
    - destruct k; try discriminate. andb. minv E0. lift_conn E1. minv E0. minv E0. minv E0. minv E0. apply assert_ok in E1, E3. destruct E1 as [-> ->], E3 as [-> ->].
      destruct (c_rel _ IH _ _ _ _ _ g' g' _ _ E2 ltac:(assumption) C1 K1 eq_refl S1) as (F1 & t1 & W1 & A1 & D1 & V1).
      destruct (c_rel _ IH _ _ _ _ _ g' g' _ _ E4 ltac:(assumption) (did_ctx _ _ _ _ _ _ _ _ _ D1 V1 C1) K1 eq_refl (did_said _ _ _ _ _ _ _ _ _ D1)) as (F2 & t2 & W2 & A2 & D2 & V2).
      destruct (did_conn _ _ _ _ _ _ _ _ _ _ _ _ _ _ _ _ _ D1 D2 E0) as (D3 & V3). eexists _, t2, W2. split; [econstructor; eassumption|exact D3].
    - destruct k; try discriminate. destruct (c_sub _ IH _ _ _ _ _ _ _ E0 Fo C1 K1 S1) as (F & t' & W' & A & D & V). exists F, t', W'. split; [constructor; exact A|exact D]. }
  destruct Q as (F & t' & W' & A & D). exists F, t', W'. split; [exact A|]. split; [|reflexivity]. destruct D as (X & S2 & A2 & Fi). exists X.
  assert (R := z_ran _ _ _ _ _ _ _ S2). assert (P : s1 = with_hoa s2 (s_hoa s)).
  { assert (Ho := r_hoa _ _ R). rewrite Es0 in Ho. cbn in Ho. destruct bo; [apply pop_hoa_ok in E1; subst s1; rewrite Ho; reflexivity|]. minv E1. subst. rewrite <- Ho. destruct s1; reflexivity. }
  subst s1. split; [|split; [exact A2|unfold inS, bnames in *; rewrite Bo in Fi; exact Fi]].
  eapply steps_around; [exact S2|rewrite Es0; reflexivity..|reflexivity|reflexivity|reflexivity|reflexivity|reflexivity|]. cbn. rewrite (r_hi _ _ R), Es0. reflexivity.
Qed.
End Step.
End Specs.
