(** The interpretation of sentences with clauses ends. *)

From Coq Require Import String NArith List Bool Arith Lia.
From Verif Require Import Base PegSyntax Ast AstSorts Logic LogicWords LogicSpec ScopeSpec Interp OrderFacts SeqFacts TermFacts ScopeFacts ScopeInterp ScopeRun Meaning MeaningFacts Clauses ClauseHeap ClauseRun ClauseStep ClauseBind ClauseSpecs ClauseArgs ClauseFront.
From Verif Require Import ScopeEnds ClauseEnds.
From Verif Require MeaningStep MeaningArgs.
Import ListNotations.
Open Scope string_scope.
Open Scope list_scope.
Open Scope nat_scope.

Lemma total_make_lambda a b : total (make_lambda a b).
Proof.
  unfold make_lambda. apply total_bind; [discriminate|intros x]. apply total_bind; [apply total_alloc|intros l]. apply total_bind; [apply total_alloc|intros a0]. apply total_bind; [apply total_alloc|intros sc].
  apply total_bind; [apply total_set_scope|intros _]. apply total_alloc.
Qed.
Lemma total_make_content x : total (make_content_pred x).
Proof. unfold make_content_pred. apply total_bind; [apply total_alloc|intros e]. apply total_bind; [apply total_alloc|intros c]. apply total_make_lambda. Qed.
Lemma total_restrict_content b a x : total (restrict_content b a x).
Proof. unfold restrict_content. apply total_bind; [apply total_make_content|intros c]. apply total_bind; [apply total_alloc|intros r]. apply total_set_restriction. Qed.
Lemma po_pred_total U po : po_pred U po <> NoFuel.
Proof. unfold po_pred. repeat match goal with |- context [if ?b then _ else _] => destruct b end; discriminate. Qed.
Lemma mi_pred_total U w : mi_pred U w <> NoFuel.
Proof. unfold mi_pred. repeat match goal with |- context [if ?b then _ else _] => destruct b end; discriminate. Qed.

Section Halt.
Variables (U : unicode) (ol : list (N * N)).
Notation cov := (covered U ol).
Let R {A} (c : call A) : nat -> nat -> Interp.M A := fun v f => run U ol v f A c.

Record hyps (N : nat) : Prop := Hyps {
  h_sent : forall n s t W, 4 * size n < N -> cov n = true -> ctx scene0 s -> said t s W -> ends (R (KSentence n)) s;
  h_sub : forall n s g t W, 4 * size n + 1 < N -> cov n = true -> ctx g s -> closed g -> said t s W -> ends (R (KSubordinate n)) s;
  h_stmt : forall a n s g t W ta, 4 * size n < N -> cov n = true -> ctx g s -> closed g -> said t s W -> rargs (s_heap s) a ta -> args_in g t ta -> ends (R (KStatement a n)) s;
  h_pred : forall n s g t W, 4 * size n < N -> cov n = true -> ctx g s -> closed g -> said t s W -> ends (R (KPredicate n)) s;
  h_po : forall pred a0 a1 s g t W nm y, 4 * size a1 + 1 < N -> cov a1 = true -> ctx g s -> closed g -> said t s W ->
    nth_error (s_heap s) pred = Some (CPred nm) -> rthing (s_heap s) a0 (Bound y false) -> inS g t y -> ends (R (KPoArgument pred a0 a1)) s;
  h_pren : forall a n bi ts s g t W ta, 4 * (size n + sizes ts) + 2 < N -> cov n = true -> forallb cov ts = true ->
    ctx g s -> closed g -> said t s W -> rargs (s_heap s) a ta -> args_in g t ta -> ends (R (KPrenex a n bi ts)) s;
  h_prep : forall n a s g t W r, 4 * (size n + tail_size a) + 1 < N -> cov n = true -> ctx g s -> closed g -> said t s W -> arg_case U ol (s_heap s) g t a r -> ends (R (KPreposition n a)) s;
  h_by : forall p a n s g t W r, 4 * (size p + size n + tail_size a) + 3 < N -> cov p = true -> cov n = true -> ctx g s -> closed g -> said t s W -> arg_case U ol (s_heap s) g t a r ->
    ends (R (KPredPreposition p a n)) s;
  h_adv : forall n a s g t W y, 4 * size n + 1 < N -> cov n = true -> ctx g s -> closed g -> said t s W -> rthing (s_heap s) a (Bound y false) -> inS g t y -> ends (R (KAdverb n a)) s;
  h_roi : forall l r s g t W, 4 * (size l + size r) + 3 < N -> cov l = true -> cov r = true -> ctx g s -> closed g -> said t s W -> ends (R (KRoi l r)) s;
  h_left : forall x l r s g t W z, 4 * (size l + size r) + 2 < N -> cov l = true -> cov r = true -> ctx g s -> closed g -> said t s W -> rthing (s_heap s) x (Bound z false) -> inS g t z ->
    ends (R (KRoiLeft x l r)) s;
  h_right : forall x l r s g t W z v, 4 * size r + 1 < N -> cov r = true -> ctx g s -> closed g -> said t s W ->
    rthing (s_heap s) x (Bound z false) -> inS g t z -> rthing (s_heap s) l v -> var_in g t v -> ends (R (KRoiRight x l r)) s;
  h_arg : forall f q p rel s g t W, 4 * size (NPredArg f q p rel) < N -> cov (NPredArg f q p rel) = true -> ctx g s -> closed g -> said t s W -> ends (R (KPredArg f q p rel)) s;
  h_rel : forall bo n s g g' t W, 4 * size n + 1 < N -> cov n = true -> ctx g s -> closed g -> hoa_case bo (s_heap s) g g' -> said t s W -> ends (R (KRelative bo n)) s }.

Lemma halt_run {A} (c : call A) s : ends (fun v f => body U ol v (run U ol v f) c) s -> ends (R c) s.
Proof.
  intros (f0 & r & N & E). exists (S f0), r. split; [exact N|]. intros v [|f] V F; [lia|]. unfold R. cbn [run]. apply E; lia.
Qed.

(** What a call that ends leaves behind. *)
Ltac given Y := apply yields_some in Y; destruct Y as (?v & ?f & Y).
Lemma y_sent n s x s' t W : yields (R (KSentence n)) s x s' -> cov n = true -> ctx scene0 s -> said t s W ->
    exists F t' W', did scene0 t s W s' t' W' x F /\ s_vars s' = s_vars s.
Proof. intros Y ? ? ?. given Y. destruct (c_sent _ _ _ (run_clauses U ol v f) _ _ _ _ t W Y) as (F & t' & W' & _ & D); eauto. Qed.
Lemma y_sub n s x s' g t W : yields (R (KSubordinate n)) s x s' -> cov n = true -> ctx g s -> closed g -> said t s W ->
    exists F t' W', did g t s W s' t' W' x F /\ s_vars s' = s_vars s.
Proof. intros Y ? ? ? ?. given Y. destruct (c_sub _ _ _ (run_clauses U ol v f) _ _ _ _ g t W Y) as (F & t' & W' & _ & D); eauto. Qed.
Lemma y_stmt a n s x s' g t W ta : yields (R (KStatement a n)) s x s' -> cov n = true -> ctx g s -> closed g -> said t s W -> rargs (s_heap s) a ta -> args_in g t ta ->
    exists F t' W', did g t s W s' t' W' x F /\ s_vars s' = s_vars s.
Proof. intros Y ? ? ? ? ? ?. given Y. destruct (c_stmt _ _ _ (run_clauses U ol v f) _ _ _ _ _ g t W ta Y) as (F & t' & W' & _ & D); eauto. Qed.
Lemma y_pred n s p s' g t W : yields (R (KPredicate n)) s p s' -> cov n = true -> ctx g s -> closed g -> said t s W ->
    exists P t' W', didp g t s W s' t' W' p P /\ s_vars s' = s_vars s.
Proof. intros Y ? ? ? ?. given Y. destruct (c_pred _ _ _ (run_clauses U ol v f) _ _ _ _ g t W Y) as (F & t' & W' & _ & D & V & _); eauto. Qed.
Lemma y_po pred a0 a1 s x s' g t W nm y : yields (R (KPoArgument pred a0 a1)) s x s' -> cov a1 = true -> ctx g s -> closed g -> said t s W ->
    nth_error (s_heap s) pred = Some (CPred nm) -> rthing (s_heap s) a0 (Bound y false) -> inS g t y ->
    exists F t' W', did g t s W s' t' W' x F /\ s_vars s' = s_vars s.
Proof. intros Y ? ? ? ? ? ? ?. given Y. destruct (c_po _ _ _ (run_clauses U ol v f) _ _ _ _ _ _ g t W nm y Y) as (F & t' & W' & _ & D); eauto. Qed.
Lemma y_pren a n bi ts s x ts' s' g t W ta : yields (R (KPrenex a n bi ts)) s (x, ts') s' -> cov n = true -> forallb cov ts = true ->
    ctx g s -> closed g -> said t s W -> rargs (s_heap s) a ta -> args_in g t ta ->
    exists F t' W', did g t s W s' t' W' x F /\ s_vars s' = s_vars s /\ forallb cov ts' = true /\ sizes ts' <= sizes ts /\ sizes (tl ts') <= sizes (tl ts).
Proof.
  intros Y ? ? ? ? ? ? ?. given Y. destruct (l_pren _ (run_left U ol v f) _ _ _ _ _ _ _ _ Y) as (L1 & L2).
  destruct (c_pren _ _ _ (run_clauses U ol v f) _ _ _ _ _ _ _ _ g t W ta Y) as (F & t' & W' & _ & D & V & Ts); try assumption. exists F, t', W'. auto.
Qed.
Lemma y_prep n a s x ts s' g t W r : yields (R (KPreposition n a)) s (x, ts) s' -> cov n = true -> ctx g s -> closed g -> said t s W -> arg_case U ol (s_heap s) g t a r ->
    exists F t' W', did g t s W s' t' W' x F /\ s_vars s' = s_vars s /\ forallb cov ts = true /\ sizes ts <= sizes (tail_terms a).
Proof.
  intros Y ? ? ? ? ?. given Y. assert (L := l_prep _ (run_left U ol v f) _ _ _ _ _ _ Y).
  destruct (c_prep _ _ _ (run_clauses U ol v f) _ _ _ _ _ _ g t W r Y) as (F & t' & W' & _ & D & V & Ts); try assumption. exists F, t', W'. auto.
Qed.
Lemma y_by p a n s x ts s' g t W r : yields (R (KPredPreposition p a n)) s (x, ts) s' -> cov p = true -> cov n = true -> ctx g s -> closed g -> said t s W -> arg_case U ol (s_heap s) g t a r ->
    exists F t' W', did g t s W s' t' W' x F /\ s_vars s' = s_vars s /\ forallb cov ts = true /\ sizes ts <= sizes (tail_terms a).
Proof.
  intros Y ? ? ? ? ? ?. given Y. assert (L := l_by _ (run_left U ol v f) _ _ _ _ _ _ _ Y).
  destruct (c_by _ _ _ (run_clauses U ol v f) _ _ _ _ _ _ _ g t W r Y) as (F & t' & W' & _ & D & V & Ts); try assumption. exists F, t', W'. auto.
Qed.
Lemma y_adv n a s x s' g t W y : yields (R (KAdverb n a)) s x s' -> cov n = true -> ctx g s -> closed g -> said t s W -> rthing (s_heap s) a (Bound y false) -> inS g t y ->
    exists F t' W', did g t s W s' t' W' x F /\ s_vars s' = s_vars s.
Proof. intros Y ? ? ? ? ? ?. given Y. destruct (c_adv _ _ _ (run_clauses U ol v f) _ _ _ _ _ g t W y Y) as (F & t' & W' & _ & D); eauto. Qed.
Lemma y_roi l r s bo x s' g t W : yields (R (KRoi l r)) s (bo, x) s' -> cov l = true -> cov r = true -> ctx g s -> closed g -> said t s W ->
    exists b v g' t' W', dida g t s W s' t' W' bo x b v false g'.
Proof. intros Y ? ? ? ? ?. given Y. destruct (c_roi _ _ _ (run_clauses U ol v f) _ _ _ _ _ _ g t W Y) as (b & w & g' & t' & W' & _ & D); eauto 8. Qed.
Lemma y_left x l r s y s' g t W z : yields (R (KRoiLeft x l r)) s y s' -> cov l = true -> cov r = true -> ctx g s -> closed g -> said t s W -> rthing (s_heap s) x (Bound z false) -> inS g t z ->
    exists F g' t' W', didr g t s W s' t' W' y F g'.
Proof. intros Y ? ? ? ? ? ? ?. given Y. destruct (c_left _ _ _ (run_clauses U ol v f) _ _ _ _ _ _ g t W z Y) as (F & g' & t' & W' & _ & D); eauto. Qed.
Lemma y_right x l r s y s' g t W z v : yields (R (KRoiRight x l r)) s y s' -> cov r = true -> ctx g s -> closed g -> said t s W ->
    rthing (s_heap s) x (Bound z false) -> inS g t z -> rthing (s_heap s) l v -> var_in g t v ->
    exists F g' t' W', didr g t s W s' t' W' y F g'.
Proof. intros Y ? ? ? ? ? ? ? ?. given Y. destruct (c_right _ _ _ (run_clauses U ol v0 f) _ _ _ _ _ _ g t W z v Y) as (F & g' & t' & W' & _ & D); eauto. Qed.
Lemma y_arg f q p rel s bo x s' g t W : yields (R (KPredArg f q p rel)) s (bo, x) s' -> cov (NPredArg f q p rel) = true -> ctx g s -> closed g -> said t s W ->
    exists b v g' t' W', dida g t s W s' t' W' bo x b v false g'.
Proof. intros Y ? ? ? ?. given Y. destruct (c_arg _ _ _ (run_clauses U ol v f0) _ _ _ _ _ _ _ _ g t W Y) as (b & w & g' & t' & W' & _ & D); eauto 8. Qed.
Lemma y_rel bo n s x s' g g' t W : yields (R (KRelative bo n)) s x s' -> cov n = true -> ctx g s -> closed g -> hoa_case bo (s_heap s) g g' -> said t s W ->
    exists F t' W', did g t s W s' t' W' x F /\ s_vars s' = s_vars s.
Proof. intros Y ? ? ? ? ?. given Y. destruct (c_rel _ _ _ (run_clauses U ol v f) _ _ _ _ _ g g' t W Y) as (F & t' & W' & _ & D); eauto. Qed.

Section Step.
Variable N0 : nat.
Hypothesis IH : hyps N0.

Ltac tot := apply ends_total; first [apply total_alloc|apply total_ret|apply total_panic|apply total_crash|apply total_assert|
  apply total_lift; first [apply connector_total|apply quantifier_total|apply go_pos_total|apply po_pred_total|apply mi_pred_total]|apply total_new_binding|apply total_lookup|
  apply total_get_binding|apply total_set_restriction|apply total_set_scope|apply total_set_quantifier|apply total_set_focus|apply total_set_binding|
  apply distribute_total|apply serial_left_total|apply total_restrict_content|apply total_make_lambda|apply total_make_content|discriminate].
Ltac tots1 := cbv beta iota;
  first [apply total_alloc|apply total_ret|apply total_panic|apply total_crash|apply total_assert|apply total_get_binding|apply total_set_restriction|apply total_set_scope|apply total_set_quantifier|apply total_set_focus|
  apply total_make_lambda|apply total_make_content|apply distribute_total|discriminate|apply total_bind; [tots1|intros ?; tots1]].
Ltac tots := apply ends_total; tots1.
(** One step that needs no fuel. *)
Ltac easy_step H := eapply (ends_bind (fun _ _ => _)); [tot|]; let a := fresh "a" in let s := fresh "s" in intros a s H; apply yields_const in H; cbv beta iota.
Ltac asserted := let E := fresh in easy_step E; apply assert_ok in E; destruct E as [-> ->].
Ltac lifted := let E := fresh in easy_step E; apply lift_same in E; subst.

Lemma sentence_halts n s t W : 4 * size n < S N0 -> cov n = true -> ctx scene0 s -> said t s W -> ends (fun v f => do_sentence U (run U ol v f) n) s.
Proof.
  intros L Fo C Sd. destruct n; try discriminate; cbn [do_sentence covered size] in *; try (tot; fail).
  - eapply (h_sub _ IH); [lia|eassumption..|split; [intros ? ? []|discriminate]|eassumption].
  - destruct k; try discriminate; try (tot; fail). destruct (negb _); [tot|]. andb. asserted.
    eapply ends_bind; [eapply (h_sent _ IH); [lia|eassumption..]|]. intros x s1 Y. eapply y_sent in Y; [|eassumption..]. destruct Y as (F & t1 & W1 & D & V).
    asserted. eapply ends_bind; [eapply (h_sent _ IH); [lia|assumption|exact (did_ctx _ _ _ _ _ _ _ _ _ D V C)|exact (did_said _ _ _ _ _ _ _ _ _ D)]|]. intros y s2 _. tot.
Qed.

Lemma subordinate_halts n s g t W : 4 * size n < N0 -> cov n = true -> ctx g s -> closed g -> said t s W -> ends (fun v f => subordinate v (run U ol v f _ (KStatement [] n))) s.
Proof.
  intros L Fo C K Sd. unfold subordinate. easy_step E. injection E as <- <-. easy_step E. injection E as <- <-.
  match goal with |- ends _ ?x => set (s1 := x) in * end.
  assert (C1 : ctx g s1) by (eapply ctx_same; [..|exact C]; reflexivity). assert (S1 : said t s1 W) by (eapply said_same; [..|exact Sd]; reflexivity).
  eapply ends_bind; [eapply (h_stmt _ IH); [exact L|exact Fo|exact C1|exact K|exact S1|constructor|intros ? ? []]|]. intros x s2 Y.
  eapply y_stmt in Y; [|exact Fo|exact C1|exact K|exact S1|constructor|intros ? ? []]. destruct Y as (F & t1 & W1 & D & V).
  easy_step E. injection E as <- <-. easy_step E. injection E as <- <-.
  assert (Hi : s_hi s2 = [] :: s_hi s) by (destruct D as (X & Z & _); exact (r_hi _ _ (z_ran _ _ _ _ _ _ _ Z))). rewrite Hi. cbn [hd rev bind_his]. tot.
Qed.

Lemma predication_halts p a s g t W : 4 * size p < N0 -> cov p = true -> ctx g s -> closed g -> said t s W -> ends (fun v f => predication (run U ol v f) p a) s.
Proof. intros L F C K Sd. unfold predication. eapply ends_bind; [eapply (h_pred _ IH); eassumption|]. intros c s1 _. tot. Qed.
Lemma make_halts p a s g t W : 4 * size p < N0 -> cov p = true -> ctx g s -> closed g -> said t s W -> ends (fun v f => make_predication (run U ol v f) p a) s.
Proof. apply predication_halts. Qed.

Lemma statement_halts a n s g t W ta : 4 * size n < S N0 -> cov n = true -> ctx g s -> closed g -> said t s W -> rargs (s_heap s) a ta -> args_in g t ta -> ends (fun v f => do_statement U (run U ol v f) a n) s.
Proof.
  intros L Fo C K Sd Ra A. unfold do_statement. apply ends_vars. destruct n; try discriminate; cbn [covered size] in *; andb; try (tot; fail).
  - destruct n1; try discriminate; try (tot; fail). cbn [covered size] in *. eapply ends_bind; [eapply (h_pren _ IH); try eassumption; unfold sizes; lia|]. intros [x ts'] s1 _. tot.
  - destruct ts as [ts|]; [|eapply predication_halts; [lia|eassumption..]].
    eapply (h_stmt _ IH); [cbn [size]; lia|cbn [covered]; rewrite H0, H; reflexivity|eassumption..].
  - destruct k; try discriminate; try (tot; fail). lifted. asserted.
    eapply ends_bind; [eapply (h_stmt _ IH); [lia|eassumption..]|]. intros x s1 Y. eapply y_stmt in Y; [|eassumption..]. destruct Y as (F & t1 & W1 & D & V).
    asserted. destruct (did_args _ _ _ _ _ _ _ _ _ _ _ D Ra A) as (R1 & A1).
    eapply ends_bind; [eapply (h_stmt _ IH); [lia|assumption|exact (did_ctx _ _ _ _ _ _ _ _ _ D V C)|exact K|exact (did_said _ _ _ _ _ _ _ _ _ D)|exact R1|exact A1]|].
    intros y s2 _. tot.
Qed.

Lemma predicate_halts n s g t W : 4 * size n < S N0 -> cov n = true -> ctx g s -> closed g -> said t s W -> ends (fun v f => do_predicate U ol v (run U ol v f) n) s.
Proof.
  intros L Fo C K Sd.
  assert (Two : forall l r (k : pcon -> pcon -> Interp.M pcon), 4 * size l < N0 -> 4 * size r < N0 -> cov l = true -> cov r = true -> (forall x y, total (k x y)) ->
    ends (fun v f => do l <- assert AstSorts.predicates l; do x <- run U ol v f _ (KPredicate l); do r <- assert AstSorts.predicates r; do y <- run U ol v f _ (KPredicate r); k x y) s).
  { intros l r k Ll Lr Fl Fr Tk. asserted. eapply ends_bind; [eapply (h_pred _ IH); eassumption|]. intros x s1 Y. eapply y_pred in Y; [|eassumption..]. destruct Y as (P & t1 & W1 & (X & Z & _) & V).
    asserted. eapply ends_bind; [eapply (h_pred _ IH); [assumption|assumption|exact (ctx_ran _ _ _ C (z_ran _ _ _ _ _ _ _ Z) V)|exact K|exact (z_now Z)]|]. intros y s2 _. apply ends_total, Tk. }
  assert (Sub : forall st (k : ref -> Interp.M pcon), 4 * size st + 1 < N0 -> cov st = true -> (forall x, total (k x)) -> ends (fun v f => do x <- run U ol v f _ (KSubordinate st) ; k x) s).
  { intros st k Ls Fs Tk. eapply ends_bind; [eapply (h_sub _ IH); eassumption|]. intros x s1 _. apply ends_total, Tk. }
  destruct n; try discriminate; cbn [covered size] in *; cbn [do_predicate]; try (tot; fail).
  - andb. apply Two; try lia; try (apply no_abs; assumption). intros; apply serial_left_total.
  - clear Two Sub. destruct (is_variable U ol (NWordPredicate w)) as [v|].
    + easy_step E. destruct a. tot.
    + destruct (is_hoa U (NWordPredicate w)); [|tot]. easy_step E. destruct a; tots.
  - clear Two Sub. apply ends_total. apply total_bind; [apply total_alloc|]. intros q. apply total_bind; [apply total_lift, mi_pred_total|]. intros m. apply total_bind; [destruct m; discriminate|].
    intros p. apply total_bind; [apply total_make_lambda|]. discriminate.
  - (* po *) clear Two Sub. eapply ends_bind; [|intros; tot]. unfold po_predicate. lifted. easy_step E0. easy_step E1. easy_step E2. easy_step E3.
    destruct (steps_leaf _ _ _ _ _ _ E0 eq_refl Sd) as (S1 & N1 & V1).
    destruct (steps_new (fun x => CBinding QLambda x false None None) _ _ _ _ _ _ _ E1 E2 ltac:(eauto 6) (z_now S1)) as (S2 & -> & N2 & V2).
    destruct (steps_leaf _ _ _ _ _ _ E3 eq_refl (z_now S2)) as (S3 & N3 & V3).
    assert (S23 := z_trans S2 S3). assert (S13 := z_trans S1 S23). cbn [app] in S13, S23.
    eapply ends_bind; [|intros sc s9 _; tots].
    eapply (h_po _ IH) with (g := in_scope g (n_next t) true); [lia|exact Fo| | |exact (z_now S3)|apply (z_grows S23), N1| |].
    { eapply ctx_scope; [eapply ctx_ran; [exact C|exact (z_ran _ _ _ _ _ _ _ S13)|congruence]|apply (z_grows S3), N2|reflexivity]. } { apply closed_scope, K. }
    { econstructor; [exact N3|]. eexists _, _, _, _. apply (z_grows S3). exact N2. } { left. left. reflexivity. }
  - (* mo *) clear Two Sub. tots.
  - (* content *) apply Sub; [lia|exact Fo|]. intros x. apply total_bind; [apply total_make_content|]. discriminate.
  - assert (Two' := fun c => Two n1 n2 (fun x y => ret (PConn c x y))). clear Two. andb. destruct k; try tot; lifted; (apply Two'; [lia|lia|assumption|assumption|discriminate]).
  - destruct k; try (tot; fail).
    + destruct (has_text U lu "lu"); [|apply Sub; [lia|exact Fo|]; discriminate]. clear Two Sub.
      easy_step E. easy_step E0. destruct (steps_new (fun x => CBinding QLambda x false None None) _ _ _ _ _ _ _ E E0 ltac:(eauto 6) Sd) as (S1 & -> & N1 & V1).
      easy_step E1. apply push_hoa_ok in E1. subst s2. set (s2 := with_hoa s1 (a0 :: s_hoa s1)) in *. set (s0' := with_hoa s (a0 :: s_hoa s)).
      assert (S2 : steps s0' t W [a0] s2 (up_to t (Datatypes.S (n_next t))) W) by (eapply steps_around; [exact S1|try reflexivity..]; [cbn; rewrite (r_hoa _ _ (z_ran _ _ _ _ _ _ _ S1)); reflexivity|exact (r_hi _ _ (z_ran _ _ _ _ _ _ _ S1))]).
      assert (C1 : ctx g s1) by (eapply ctx_ran; [exact C|exact (z_ran _ _ _ _ _ _ _ S1)|exact V1]).
      assert (C2 : ctx (about (in_scope g (n_next t) true) (n_next t)) s2) by (eapply ctx_push; [eapply ctx_scope; [exact C1|exact N1|reflexivity]|eexists _, _, _, _; exact N1]).
      assert (K2 : closed (about (in_scope g (n_next t) true) (n_next t))) by (apply closed_about; [apply closed_scope, K|left; reflexivity]).
      eapply ends_bind; [eapply (h_sub _ IH); [lia|exact Fo|exact C2|exact K2|exact (z_now S2)]|]. intros x s3 Y. eapply y_sub in Y; [|exact Fo|exact C2|exact K2|exact (z_now S2)]. destruct Y as (F & t3 & W3 & D & V).
      eapply (ends_bind (fun v _ => bind_scope v (Some a0) x)); [eapply bind_scope_ends, (did_nth _ _ _ _ _ _ _ _ _ _ _ D), N1|]. intros z s4 _. tots.
    + apply Sub; [lia|exact Fo|]. intros x. apply total_bind; [apply total_make_content|]. discriminate.
Qed.

(** An argument that is not connected, or the connection. *)
Lemma case_halts {B} n u (one : nat -> nat -> option ref -> ref -> Interp.M B) (two : nat -> nat -> word -> node -> node -> Interp.M B) s g t W :
  4 * size n < N0 -> cov n = true -> ctx g s -> closed g -> said t s W ->
  (forall bo x s1 b v g' t1 W1, dida g t s W s1 t1 W1 bo x b v false g' -> ends (fun v f => one v f bo x) s1) ->
  (forall f m ru l r, n = NCoP CArgument f m ru l r -> cov l = true -> cov r = true -> ends (fun v f => two v f ru l r) s) ->
  ends (fun v f => argument_case U (run U ol v f) n u (one v f) (two v f)) s.
Proof.
  intros L Fo C K Sd H1 H2. unfold argument_case. destruct n; try (tot; fail).
  - eapply ends_bind; [eapply (h_arg _ IH); eassumption|]. intros [bo x] s1 Y. eapply y_arg in Y; [|eassumption..]. destruct Y as (b & v & g' & t1 & W1 & D). eapply H1, D.
  - destruct k; try (tot; fail). cbn [covered size] in *. andb. destruct (has_text U ru "roi"); [|eapply H2; [reflexivity|assumption..]].
    eapply ends_bind; [eapply (h_roi _ IH); [lia|eassumption..]|]. intros [bo x] s1 Y. eapply y_roi in Y; [|eassumption..]. destruct Y as (b & v & g' & t1 & W1 & D). eapply H1, D.
Qed.

Lemma po_halts pred a0 a1 s g t W nm y : 4 * size a1 < N0 -> cov a1 = true -> ctx g s -> closed g -> said t s W ->
    nth_error (s_heap s) pred = Some (CPred nm) -> rthing (s_heap s) a0 (Bound y false) -> inS g t y -> ends (fun v f => po_argument U v (run U ol v f) pred a0 a1) s.
Proof.
  intros L Fo C K Sd N T I. unfold po_argument. apply ends_vars. eapply case_halts; try eassumption.
  - intros bo x s1 b v g' t1 W1 D. easy_step E. destruct (dida_facts _ _ _ _ _ _ _ _ _ _ _ _ _ D) as (C1 & K1 & S1 & T1 & I1 & In1 & G1 & On1).
    destruct (did_named _ nm [a0; x] [Bound y false; v] _ _ _ g' t1 W1 E (G1 _ _ N)) as (D2 & V2).
    { constructor; [eapply thing_grows; eassumption|constructor; [exact T1|constructor]]. } { intros u [<-|[<-|[]]]; [|exact I1]. eapply var_next with (v := Bound y false); eassumption. } { exact S1. }
    eapply scope_ends; eassumption.
  - intros f m ru l r -> Fl Fr. cbn [size] in L. lifted. asserted. eapply ends_bind; [eapply (h_po _ IH); [lia|eassumption..]|]. intros x s1 Y. eapply y_po in Y; [|eassumption..]. destruct Y as (F & t1 & W1 & D & V).
    asserted. eapply ends_bind; [eapply (h_po _ IH); [lia|eassumption|exact (did_ctx _ _ _ _ _ _ _ _ _ D V C)|exact K|exact (did_said _ _ _ _ _ _ _ _ _ D)|exact (did_nth _ _ _ _ _ _ _ _ _ _ _ D N)|exact (did_thing _ _ _ _ _ _ _ _ _ _ _ D T)|exact (did_in _ _ _ _ _ _ _ _ _ _ D I)]|].
    intros z s2 _. tot.
Qed.

Lemma tail_with_size a ts : sizes ts <= sizes (tail_terms a) -> tail_size (with_terms a ts) <= tail_size a.
Proof. destruct a; cbn [tail_size with_terms tail_terms]; lia. Qed.

Lemma preposition_halts n a s g t W r : 4 * (size n + tail_size a) < N0 -> cov n = true -> ctx g s -> closed g -> said t s W -> arg_case U ol (s_heap s) g t a r ->
  ends (fun v f => do_preposition U (run U ol v f) n a) s.
Proof.
  intros L Fo C K Sd A. unfold do_preposition. apply ends_vars. destruct n; try (tot; fail); cbn [covered size] in *.
  - andb. eapply (h_by _ IH); [lia|eassumption..].
  - destruct k; try (tot; fail). andb. lifted. asserted. eapply ends_bind; [eapply (h_prep _ IH); [lia|eassumption..]|]. intros [x ts1] s1 Y. eapply y_prep in Y; [|eassumption..]. destruct Y as (F & t1 & W1 & D & V & Ts & L1).
    cbv beta iota. asserted. apply tail_with_size in L1.
    eapply ends_bind; [eapply (h_prep _ IH); [lia|assumption|exact (did_ctx _ _ _ _ _ _ _ _ _ D V C)|exact K|exact (did_said _ _ _ _ _ _ _ _ _ D)|exact (arg_rest _ _ _ _ _ _ _ _ (did_arg _ _ _ _ _ _ _ _ _ _ _ _ _ D A) Ts)]|].
    intros [y ts2] s2 _. tot.
Qed.

Lemma by_halts p a n s g t W r : 4 * (size p + size n + tail_size a) + 2 < N0 -> cov p = true -> cov n = true -> ctx g s -> closed g -> said t s W -> arg_case U ol (s_heap s) g t a r ->
  ends (fun v f => pred_preposition U v (run U ol v f) p a n) s.
Proof.
  intros L Fp Fo C K Sd A. unfold pred_preposition. apply ends_vars. eapply case_halts; try eassumption; [lia|..].
  - intros bo x s1 b v g' t1 W1 D. destruct (dida_facts _ _ _ _ _ _ _ _ _ _ _ _ _ D) as (C1 & K1 & S1 & T1 & I1 & In1 & G1 & On1). assert (A1 := arg_move _ _ _ _ _ _ _ _ _ _ A G1 In1 On1).
    destruct a as [w|a st bi ts0], r as [y|ta st' keep ts']; try contradiction; cbn [arg_case] in A1; cbn [tail_size] in L.
    + destruct A1 as [Tw Iw]. eapply ends_bind; [eapply make_halts; [|eassumption..]; lia|]. intros z s2 Y. given Y.
      destruct (make_ok _ _ _ (run_clauses U ol v0 f) _ _ [Bound y false; v] _ _ _ _ _ _ Y Fp C1 K1 S1) as (P & t2 & W2 & Pr & D2 & V2); [repeat (constructor; [assumption|]); constructor|intros u [<-|[<-|[]]]; assumption|].
      eapply (ends_bind (fun v _ => bind_scope v bo z)); [eapply scope_ends; eassumption|]. intros; tot.
    + destruct A1 as (Ra & Ai & -> & -> & -> & Fst & Fts).
      eapply ends_bind; [eapply (h_pren _ IH); [lia|eassumption..]|]. intros [y ts] s2 Y. eapply y_pren in Y; [|eassumption..]. destruct Y as (F & t2 & W2 & D2 & V2 & Ts2 & L2 & _). cbv beta iota.
      easy_step E. destruct a0 as [b1 x1]. easy_step E1.
      destruct (clause_dida _ _ _ _ _ _ _ _ _ _ _ _ _ _ _ D2 E E1 C1 K1 V2) as (D3 & V3). destruct (dida_facts _ _ _ _ _ _ _ _ _ _ _ _ _ D3) as (C4 & K4 & S4 & T4 & I4 & In4 & G4 & On4).
      eapply ends_bind; [eapply make_halts; [|eassumption..]; lia|]. intros z s5 Y. given Y.
      destruct (make_ok _ _ _ (run_clauses U ol v0 f) _ _ [Bound (n_next t2) false; v] _ _ _ _ _ _ Y Fp C4 K4 S4) as (P & t3 & W3 & Pr & D5 & V5).
      { constructor; [exact T4|constructor; [eapply thing_grows; eassumption|constructor]]. } { intros u [<-|[<-|[]]]; [exact I4|]. eapply var_next; eassumption. }
      eapply (ends_bind (fun v _ => bind_scope v (Some b1) z)); [eapply scope_ends; eassumption|]. intros z1 s6 Y1. given Y1.
      destruct (dida_scope _ _ _ _ _ _ _ _ _ _ _ _ _ _ _ _ _ _ _ _ _ D3 D5 Y1) as (D6 & V6).
      eapply (ends_bind (fun v _ => bind_scope v bo z1)); [eapply scope_ends; eassumption|]. intros; tot.
  - intros f m ru l r0 -> Fl Fr. cbn [size] in L. lifted. asserted. eapply ends_bind; [eapply (h_by _ IH); [lia|eassumption..]|]. intros [x ts1] s1 Y. eapply y_by in Y; [|eassumption..]. destruct Y as (F & t1 & W1 & D & V & Ts & L1).
    cbv beta iota. asserted. apply tail_with_size in L1.
    eapply ends_bind; [eapply (h_by _ IH); [|assumption|assumption|exact (did_ctx _ _ _ _ _ _ _ _ _ D V C)|exact K|exact (did_said _ _ _ _ _ _ _ _ _ D)|exact (arg_rest _ _ _ _ _ _ _ _ (did_arg _ _ _ _ _ _ _ _ _ _ _ _ _ D A) Ts)]|]; [lia|].
    intros [y ts2] s2 _. tot.
Qed.

Lemma adverb_halts n a s g t W y : 4 * size n < N0 -> cov n = true -> ctx g s -> closed g -> said t s W -> rthing (s_heap s) a (Bound y false) -> inS g t y -> ends (fun v f => do_adverb U (run U ol v f) n a) s.
Proof.
  intros L Fo C K Sd T I. unfold do_adverb. apply ends_vars. destruct n; try (tot; fail); cbn [covered size] in *.
  - eapply make_halts; [|eassumption..]. lia.
  - destruct k; try (tot; fail). andb. lifted. asserted. eapply ends_bind; [eapply (h_adv _ IH); [lia|eassumption..]|]. intros x s1 Y. eapply y_adv in Y; [|eassumption..]. destruct Y as (F & t1 & W1 & D & V).
    asserted. eapply ends_bind; [eapply (h_adv _ IH); [lia|assumption|exact (did_ctx _ _ _ _ _ _ _ _ _ D V C)|exact K|exact (did_said _ _ _ _ _ _ _ _ _ D)|exact (did_thing _ _ _ _ _ _ _ _ _ _ _ D T)|exact (did_in _ _ _ _ _ _ _ _ _ _ D I)]|].
    intros z s2 _. tot.
Qed.

Lemma roi_halts l r s g t W : 4 * (size l + size r) + 2 < N0 -> cov l = true -> cov r = true -> ctx g s -> closed g -> said t s W -> ends (fun v f => do_roi (run U ol v f) l r) s.
Proof.
  intros L Fl Fr C K Sd. unfold do_roi. easy_step E. destruct a as [b a]. asserted. asserted.
  destruct (steps_binding _ _ _ _ _ _ _ _ E Sd) as (S1 & N1 & T1 & V1). assert (C1 : ctx g s0) by (eapply ctx_ran; [exact C|exact (z_ran _ _ _ _ _ _ _ S1)|exact V1]).
  eapply ends_bind; [|intros z s2 _; tots]. eapply (h_left _ IH) with (g := in_scope g (n_next t) false); [lia|exact Fl|exact Fr| | |exact (z_now S1)|exact T1|left; left; reflexivity].
  - eapply ctx_scope; [exact C1|exact N1|reflexivity].
  - apply closed_scope, K.
Qed.
Lemma left_halts x l r s g t W z : 4 * (size l + size r) + 1 < N0 -> cov l = true -> cov r = true -> ctx g s -> closed g -> said t s W -> rthing (s_heap s) x (Bound z false) -> inS g t z ->
  ends (fun v f => roi_left U v (run U ol v f) x l r) s.
Proof.
  intros L Fl Fr C K Sd T I. unfold roi_left. eapply case_halts; try eassumption; [lia|..].
  - intros bo w s1 b v g' t1 W1 D. destruct (dida_facts _ _ _ _ _ _ _ _ _ _ _ _ _ D) as (C1 & K1 & S1 & T1 & I1 & In1 & G1 & On1).
    assert (T' := thing_grows _ _ _ _ G1 T). assert (I' := var_next _ _ _ _ (Bound z false) In1 On1 I). change (inS g' t1 z) in I'.
    eapply ends_bind; [eapply (h_right _ IH); [lia|eassumption..]|]. intros y s2 Y. eapply y_right in Y; [|eassumption..]. destruct Y as (F & g2 & t2 & W2 & D2 & _). eapply scope_ends; eassumption.
  - intros f m ru l1 l2 -> F1 F2. cbn [size] in L. lifted. asserted. eapply ends_bind; [eapply (h_left _ IH); [lia|eassumption..]|]. intros y s1 Y. eapply y_left in Y; [|eassumption..]. destruct Y as (F & g1 & t1 & W1 & D1 & C1 & K1 & In1 & In2).
    asserted. eapply ends_bind; [eapply (h_left _ IH); [|exact F2|exact Fr|exact C1|exact K1|exact (did_said _ _ _ _ _ _ _ _ _ D1)|exact (did_thing _ _ _ _ _ _ _ _ _ _ _ D1 T)|exact (var_next _ _ _ _ (Bound z false) In1 (incl_refl _) (did_in _ _ _ _ _ _ _ _ _ _ D1 I))]|]; [lia|].
    intros w s2 _. tot.
Qed.
Lemma right_halts x l r s g t W z v : 4 * size r < N0 -> cov r = true -> ctx g s -> closed g -> said t s W ->
    rthing (s_heap s) x (Bound z false) -> inS g t z -> rthing (s_heap s) l v -> var_in g t v -> ends (fun v f => roi_right U v (run U ol v f) x l r) s.
Proof.
  intros L Fr C K Sd T I Tl Il. unfold roi_right. eapply case_halts; try eassumption.
  - intros bo w s1 b u g' t1 W1 D. easy_step E. easy_step E0. easy_step E1. destruct (dida_facts _ _ _ _ _ _ _ _ _ _ _ _ _ D) as (C1 & K1 & S1 & T1 & I1 & In1 & G1 & On1).
    destruct (steps_alloc _ _ _ _ _ _ E eq_refl S1) as (S2 & N2 & V2). destruct (steps_leaf _ _ _ _ _ _ E0 eq_refl (z_now S2)) as (S3 & N3 & V3). destruct (steps_alloc _ _ _ _ _ _ E1 eq_refl (z_now S3)) as (S4 & N4 & V4).
    assert (S' := z_trans (z_trans S2 S3) S4). destruct D as (X & _ & B & _). destruct bo as [b0|]; [|cbn [bind_scope]; tot].
    assert (B2 := grows_bind _ _ _ _ _ _ (z_grows S') B). inversion B2; subst; eapply bind_scope_ends; eassumption.
  - intros f m ru l1 l2 -> F1 F2. cbn [size] in L. lifted. asserted. eapply ends_bind; [eapply (h_right _ IH); [lia|eassumption..]|]. intros y s1 Y. eapply y_right in Y; [|eassumption..]. destruct Y as (F & g1 & t1 & W1 & D1 & C1 & K1 & In1 & In2).
    asserted. eapply ends_bind; [eapply (h_right _ IH); [|exact F2|exact C1|exact K1|exact (did_said _ _ _ _ _ _ _ _ _ D1)|exact (did_thing _ _ _ _ _ _ _ _ _ _ _ D1 T)|exact (var_next _ _ _ _ (Bound z false) In1 (incl_refl _) (did_in _ _ _ _ _ _ _ _ _ _ D1 I))
      |exact (did_thing _ _ _ _ _ _ _ _ _ _ _ D1 Tl)|]|]; [lia| |intros w s2 _; tot].
    destruct D1 as (X & S1 & _). eapply var_next; [exact In1|exact (z_names _ _ _ _ _ _ _ S1)|exact Il].
Qed.

Lemma relative_halts bo n s g g' t W : 4 * size n < N0 -> cov n = true -> ctx g s -> closed g -> hoa_case bo (s_heap s) g g' -> said t s W -> ends (fun v f => relative_clause U (run U ol v f) bo n) s.
Proof.
  intros L Fo C K Hc Sd. unfold relative_clause. apply ends_vars.
  eapply (ends_bind (fun _ _ => _)); [destruct bo; tot|]. intros u s0 E. apply yields_const in E.
  assert (P : ctx g' s0 /\ closed g' /\ s0 = with_hoa s (match bo with None => s_hoa s | Some b => b :: s_hoa s end)).
  { destruct bo as [b|]; cbn [hoa_case] in Hc.
    - destruct Hc as (y & Ny & Jy & ->). apply push_hoa_ok in E. subst s0. split; [apply ctx_push; assumption|]. split; [apply closed_about; assumption|auto].
    - subst g'. minv E. subst s0. destruct s. auto. }
  destruct P as (C1 & K1 & Es0). assert (S1 : said t s0 W) by (eapply said_same; [..|exact Sd]; rewrite Es0; reflexivity).
  apply ends_bind; [|intros x s2 _; apply ends_const; destruct bo; discriminate]. clear E.
  destruct n; try (tot; fail); cbn [covered size] in *.
  - eapply (h_sub _ IH); [lia|eassumption..].
  - destruct k; try (tot; fail). andb. lifted. asserted.
    eapply ends_bind; [eapply (h_rel _ IH) with (g := g') (g' := g'); [lia|assumption|assumption|assumption|reflexivity|eassumption]|]. intros x s2 Y. eapply y_rel with (g := g') (g' := g') in Y; [|assumption|assumption|assumption|reflexivity|eassumption].
    destruct Y as (F & t1 & W1 & D & V). asserted.
    eapply ends_bind; [eapply (h_rel _ IH) with (g := g') (g' := g'); [lia|assumption|exact (did_ctx _ _ _ _ _ _ _ _ _ D V C1)|assumption|reflexivity|exact (did_said _ _ _ _ _ _ _ _ _ D)]|]. intros y s3 _. tot.
  - destruct k; try (tot; fail). eapply (h_sub _ IH); [lia|eassumption..].
Qed.
(** ** Arguments *)

Lemma rel_halts b n s g t W x : 4 * size n + 1 < N0 -> cov n = true -> ctx g s -> closed g -> said t s W -> num (s_heap s) b x -> In x (bnames g) -> ends (R (KRelative (Some b) n)) s.
Proof. intros L Fo C K Sd Nb J. eapply (h_rel _ IH); [exact L|exact Fo|exact C|exact K|exists x; auto|exact Sd]. Qed.
Notation okrel rel := (match rel with None => true | Some n => cov n end = true).
Notation rel_size rel := (match rel with None => 0 | Some n => size n end).

Lemma var_halts v0 q rel s g t W : 4 * rel_size rel + 1 < N0 -> okrel rel -> ctx g s -> closed g -> said t s W -> ends (fun v f => var_argument U (run U ol v f) v0 q rel) s.
Proof.
  intros L Fr C K Sd. unfold var_argument. destruct q as [w|].
  - easy_step E. unfold lift in E. destruct (quantifier U (Some w)) as [q0| |] eqn:Q; try discriminate. injection E as <- <-.
    easy_step E. easy_step E0. easy_step E1. destruct (var_binding _ _ _ _ _ _ _ _ _ _ _ E E0 E1 Sd) as (S1 & -> & N1 & V1). clear E E0 E1. easy_step E. destruct (steps_leaf _ _ _ _ _ _ E eq_refl (z_now S1)) as (S2 & N2 & V2). clear E.
    rename a into b. rename a0 into ay. assert (S12 := z_trans S1 S2). cbn [app] in S12. assert (B2 := z_grows S2 _ _ N1).
    assert (V12 : s_vars s3 = (v0, b) :: s_vars s) by congruence. set (g1 := naming g v0 (n_next t) (counted q0)).
    assert (C2 : ctx g1 s3) by (eapply ctx_naming; [exact C|exact (z_grows S12)|exact (r_hoa _ _ (z_ran _ _ _ _ _ _ _ S12))|exact V12|exact B2]).
    assert (K2 : closed g1) by (apply closed_naming, K). assert (Nb : num (s_heap s3) b (n_next t)) by (eexists _, _, _, _; exact B2).
    apply (ends_bind (fun v f => match rel with Some n => do r <- run U ol v f _ (KRelative (Some b) n) ; set_restriction b r | None => ret tt end)); [|intros; tot].
    destruct rel as [n|]; [|tot]. eapply ends_bind; [eapply rel_halts; [exact L|exact Fr|exact C2|exact K2|exact (z_now S2)|exact Nb|left; reflexivity]|]. intros r s4 _. tot.
  - easy_step E. destruct a as [x def]. easy_step E0. destruct (lookup_at _ _ _ _ _ _ E (k_vars _ _ C) _ _ _ _ Sd E0) as (th & i & Lk & T & S1 & V1 & J). clear E E0.
    assert (Ith : var_in g (up_to t i) th) by (destruct th as [y fo|y]; cbn; [left; eapply c_vars; eassumption|exact I]).
    assert (C1 : ctx g s1) by (eapply ctx_ran; [exact C|exact (z_ran _ _ _ _ _ _ _ S1)|exact V1]).
    destruct rel as [rn|]; [|tot]. easy_step E. destruct a0 as [b ay]. easy_step E0. easy_step E1.
    destruct (among_part _ _ _ _ _ _ _ _ _ _ _ _ _ E E0 E1 C1 K (z_now S1) T Ith) as (S3 & B3 & D4 & C4 & K4 & T4 & V4 & B4 & V3 & C3 & T3). cbn [up_to n_next] in *.
    eapply ends_bind; [eapply rel_halts; [exact L|exact Fr|exact C4|exact K4|exact (did_said _ _ _ _ _ _ _ _ _ D4)|eexists _, _, _, _; exact B4|left; reflexivity]|]. intros r s5 _. tots.
Qed.

Lemma hoa_halts q rel s g t W : 4 * rel_size rel + 1 < N0 -> okrel rel -> ctx g s -> closed g -> said t s W -> ends (fun v f => hoa_argument (run U ol v f) q rel) s.
Proof.
  intros L Fr C K Sd. unfold hoa_argument. easy_step E. injection E as <- <-. assert (Hn := k_hoa _ _ C). destruct (s_hoa s) as [|d hs] eqn:Es; cbn [hd_error] in Hn; [tots|].
  inversion Hn as [|d' y Nm E1 E2]; subst. symmetry in E2. easy_step E. apply get_binding_ok in E. destruct E as [-> B]. assert (Ey : y = b_n a) by (destruct Nm as (q1 & f1 & rs1 & sc1 & Nm); congruence). subst y.
  easy_step E. destruct (steps_leaf _ _ _ _ _ _ E eq_refl Sd) as (S1 & N1 & V1). clear E. rename a0 into ax.
  assert (T1 : rthing (s_heap s0) ax (Bound (b_n a) false)) by (econstructor; [exact N1|eapply num_grows; [exact (z_grows S1)|exact Nm]]).
  assert (C1 : ctx g s0) by (eapply ctx_ran; [exact C|exact (z_ran _ _ _ _ _ _ _ S1)|exact V1]).
  assert (I1 : var_in g t (Bound (b_n a) false)) by (left; eapply c_hoa; eauto).
  assert (Go : ends (fun v f => do '(b, ay) <- new_binding QAll false ; do among <- alloc (CPred "≺") ; do l <- alloc (CPredication among [Some ay; Some ax]) ; do _ <- set_restriction b l ;
          do _ <- match rel with Some n => do r <- run U ol v f _ (KRelative (Some b) n) ; do s <- alloc (CConnection KAnd l r) ; set_restriction b s | None => ret tt end ;
          ret (Some b, ay)) s0).
  { easy_step E. destruct a0 as [b ay]. easy_step E0. easy_step E1. easy_step E3.
    destruct (among_part _ _ _ _ _ _ _ _ _ _ _ _ _ E E0 E1 C1 K (z_now S1) T1 I1) as (S3 & B3 & D4 & C4 & K4 & T4 & V4 & B4 & V3 & C3 & T3). assert (S13 := z_trans S1 S3). cbn [app] in S13.
    destruct (bset_restrict _ _ _ _ _ _ _ _ _ _ _ _ _ _ _ _ _ _ S13 B3 D4 E3) as (B5 & V5 & T5 & C5). assert (C5' := C5 _ C4).
    assert (Nb : exists rs, nth_error (s_heap s4) b = Some (CBinding QAll (n_next t) false (Some rs) None)) by (destruct B5 as (Y & _ & B5 & _); eauto). destruct Nb as (rs & Nb).
    assert (S5 : said (up_to t (S (n_next t))) s4 W) by (destruct B5 as (Y & B5 & _); exact (z_now B5)).
    apply (ends_bind (fun v f => match rel with Some n => do r <- run U ol v f _ (KRelative (Some b) n) ; do s <- alloc (CConnection KAnd a1 r) ; set_restriction b s | None => ret tt end)); [|intros; tot].
    destruct rel as [n|]; [|tot]. eapply ends_bind; [eapply rel_halts; [exact L|exact Fr|exact C5'|exact K4|exact S5|eexists _, _, _, _; exact Nb|left; reflexivity]|]. intros r s6 _. tots. }
  destruct q, rel; try exact Go. tot.
Qed.

Lemma argument_halts f0 q p rel s g t W : 4 * size (NPredArg f0 q p rel) < S N0 -> cov (NPredArg f0 q p rel) = true -> ctx g s -> closed g -> said t s W ->
  ends (fun v f => predicate_argument U ol v (run U ol v f) f0 q p rel) s.
Proof.
  intros L Fo C K Sd. cbn [covered size] in *. apply andb_prop in Fo. destruct Fo as [Fp Fr]. unfold predicate_argument.
  assert (Lr : 4 * rel_size rel + 1 < N0) by (destruct rel; lia).
  easy_step E. injection E as <- <-. destruct (find _ (s_lifted s)) as [[k b]|]; [tots|].
  destruct (is_variable U ol p) as [v0|]; [eapply var_halts; eassumption|]. destruct (is_hoa U p); [eapply hoa_halts; eassumption|].
  andb. rename H into Fq. rename H0 into Fp. easy_step E. unfold lift in E. destruct (quantifier U q) as [qq| |] eqn:Q; try discriminate. injection E as <- <-.
  easy_step E. destruct a as [b a]. destruct (steps_binding _ _ _ _ _ _ _ _ E Sd) as (S1 & B1 & T1 & V1). clear E. rename s0 into s1. rewrite MeaningArgs.given_some in T1.
  assert (C1 : ctx g s1) by (eapply ctx_ran; [exact C|exact (z_ran _ _ _ _ _ _ _ S1)|exact V1]).
  set (g1 := in_scope g (n_next t) (counted qq)). assert (K1 : closed g1) by (apply closed_scope, K). assert (Cg1 : ctx g1 s1) by (eapply ctx_scope; [exact C1|exact B1|reflexivity]).
  eapply ends_bind; [eapply make_halts; [lia|exact Fp|exact C1|exact K|exact (z_now S1)]|]. intros r1 s2 Y. given Y.
  destruct (make_in _ _ _ (run_clauses U ol v f) _ _ [Bound (n_next t) (given f0)] _ _ _ g g1 (up_to t (S (n_next t))) W Y Fp C1 K (z_now S1)) as (P & t1 & W1 & Pr & D2 & V2); [apply incl_tl, incl_refl|constructor; [exact T1|constructor]|intros v1 [<-|[]]; left; left; reflexivity|].
  easy_step E. destruct (bset_restrict _ _ _ _ _ _ _ _ _ _ _ _ _ _ _ _ _ _ S1 B1 D2 E) as (B3 & V3 & T3 & C3). clear E. rename s0 into s3.
  assert (Cg3 := C3 _ (did_ctx _ _ _ _ _ _ _ _ _ D2 V2 Cg1)).
  assert (Nb : exists rs, nth_error (s_heap s3) b = Some (CBinding qq (n_next t) false (Some rs) None)) by (destruct B3 as (Y' & _ & B3 & _); eauto). destruct Nb as (rs & Nb).
  assert (S3 : said t1 s3 W1) by (destruct B3 as (Y' & B3 & _); exact (z_now B3)).
  apply (ends_bind (fun v f => match rel with Some n => do r <- run U ol v f _ (KRelative (Some b) n) ; do s' <- alloc (CConnection KAnd r1 r) ; set_restriction b s' | None => ret tt end)).
  { destruct rel as [n|]; [|tot]. eapply ends_bind; [eapply rel_halts; [exact Lr|exact Fr|exact Cg3|exact K1|exact S3|eexists _, _, _, _; exact Nb|left; reflexivity]|]. intros r s6 _. tots. }
  intros u s4 E. given E. assert (Fin : exists t' W' rs R, bset s t W s4 t' W' b qq (n_next t) false rs R).
  { destruct rel as [rn|].
    - minv E. minv E. destruct (rel_part _ _ _ (run_clauses U ol v0 f1) _ _ _ _ _ g1 _ _ (n_next t) E0 Fr Cg3 K1 S3 ltac:(eexists _, _, _, _; exact Nb) ltac:(left; reflexivity)) as (F & t' & W' & A & D6 & V6).
      destruct (bset_and _ _ _ _ _ _ _ _ _ _ _ _ _ _ _ _ _ _ _ _ _ _ B3 D6 E1 E) as (B7 & _). eauto.
    - minv E. subst. eauto. }
  destruct Fin as (t' & W' & rs' & Rf & B). destruct qq; try tot.
  - apply (ends_bind (fun v _ => has_free_vars v b)); [eapply bset_free_ends, B|]. intros [] s6 _; tots.
  - apply ends_total. apply total_bind; [discriminate|]. intros _. apply total_bind; [discriminate|]. intros []; discriminate.
Qed.

(** ** Terms *)

Lemma rest_halts s t W s1 t1 W1 bo x b v fo g g' a ta k n bi rest t0 : dida g t s W s1 t1 W1 bo x b v fo g' -> 4 * (size n + sizes rest) + 2 < N0 -> cov n = true -> forallb cov rest = true ->
  rargs (s_heap s) a ta -> args_in g t ta ->
  ends (fun v f => do '(y, rest') <- run U ol v f _ (KPrenex (a ++ [(x, k)]) n bi rest) ; do z <- bind_scope v bo y ; ret (z, t0 :: rest' : list node)) s1.
Proof.
  intros D L Fn Fr Ra A. destruct (dida_facts _ _ _ _ _ _ _ _ _ _ _ _ _ D) as (C1 & K1 & S1 & T1 & I1 & In1 & G1 & On1).
  assert (R1 : rargs (s_heap s1) (a ++ [(x, k)]) (ta ++ [(v, k)])) by (apply args_snoc; [eapply args_grows; eassumption|exact T1]).
  assert (A1 : args_in g' t1 (ta ++ [(v, k)])) by (apply in_snoc; [|exact I1]; eapply args_scope; [exact In1|]; eapply args_next; eassumption).
  eapply ends_bind; [eapply (h_pren _ IH); eassumption|]. intros [y rest'] s2 Y. eapply y_pren in Y; [|eassumption..]. destruct Y as (F & t2 & W2 & D2 & _).
  cbv beta iota. apply (ends_bind (fun v _ => bind_scope v bo y)); [eapply scope_ends; eassumption|]. intros z s3 _; tot.
Qed.

Lemma prenex_halts a n bi ts s g t W ta : 4 * (size n + sizes ts) + 2 < S N0 -> cov n = true -> forallb cov ts = true -> ctx g s -> closed g -> said t s W -> rargs (s_heap s) a ta -> args_in g t ta ->
  ends (fun v f => prenex_statement U v (run U ol v f) a n bi ts) s.
Proof.
  intros L Fn Ft C K Sd Ra A. unfold prenex_statement. apply ends_vars. destruct ts as [|t0 rest].
  { assert (P : rargs (s_heap s) (if has_text U bi "pa" then a else []) (if has_text U bi "pa" then ta else []) /\ args_in g t (if has_text U bi "pa" then ta else [])).
    { destruct (has_text U bi "pa"); [auto|]. split; [constructor|intros ? ? []]. }
    destruct P as [P1 P2]. eapply ends_bind; [eapply (h_stmt _ IH); [cbn in L; lia|eassumption..]|]. intros x s1 _. tot. }
  cbn [forallb] in Ft. apply andb_prop in Ft. destruct Ft as [Ft Fr]. rewrite sizes_cons in L.
  assert (Two : forall c c1 c2, cov c1 = true -> cov c2 = true -> size c1 < size t0 -> size c2 < size t0 ->
    ends (fun v f => do '(x, terms1) <- run U ol v f _ (KPrenex a n bi (c1 :: rest)) ; do '(y, terms2) <- run U ol v f _ (KPrenex a n bi (c2 :: tl terms1)) ;
      do z <- alloc (CConnection c x y) ; ret (z, terms2 : list node)) s).
  { intros c c1 c2 F1 F2 L1 L2.
    assert (P1 : forallb cov (c1 :: rest) = true) by (cbn [forallb]; rewrite F1, Fr; reflexivity).
    eapply ends_bind; [eapply (h_pren _ IH); try eassumption; rewrite sizes_cons; lia|]. intros [x t1] s1 Y. eapply y_pren in Y; [|eassumption..].
    destruct Y as (F & t2 & W2 & D & V & P2 & _ & Lt). cbn [tl] in Lt. cbv beta iota.
    assert (P3 : forallb cov (c2 :: tl t1) = true).
    { cbn [forallb]. rewrite F2. destruct t1; [reflexivity|]. cbn [forallb tl] in *. apply andb_prop in P2. apply P2. }
    destruct (did_args _ _ _ _ _ _ _ _ _ _ _ D Ra A) as (R1 & A1).
    eapply ends_bind; [eapply (h_pren _ IH); [rewrite sizes_cons; lia|assumption|exact P3|exact (did_ctx _ _ _ _ _ _ _ _ _ D V C)|exact K|exact (did_said _ _ _ _ _ _ _ _ _ D)|exact R1|exact A1]|]. intros [y t3] s2 _. tot. }
  assert (Prep : 0 < size t0 -> is_prep t0 = true -> ends (fun v f => do '(sub, rest') <- run U ol v f _ (KPrenex a n bi rest) ; do free <- has_free_vars v sub ;
      if (free : bool) then do '(z, rest'') <- run U ol v f _ (KPreposition t0 (ATail a n bi rest')) ; ret (z, t0 :: rest'')
      else do '(b, x) <- new_binding QThe false ; do _ <- restrict_content b x sub ; do _ <- add_the b ; do '(z, _) <- run U ol v f _ (KPreposition t0 (AVar x)) ; ret (z, t0 :: rest')) s).
  { intros Pos Ip. clear Two. eapply ends_bind; [eapply (h_pren _ IH); [|eassumption..]; lia|]. intros [sub rest'] s1 Y. eapply y_pren in Y; [|eassumption..]. destruct Y as (F & t1 & W1 & D & V & Ts & Ls & _). cbv beta iota.
    apply (ends_bind (fun v _ => has_free_vars v sub)); [eapply did_free_ends, D|]. intros fr s2 Y. given Y. destruct (did_free _ _ _ _ _ _ _ _ _ _ _ _ D C Y) as (-> & ->). destruct (free_in g F).
    - destruct (did_args _ _ _ _ _ _ _ _ _ _ _ D Ra A) as (R1 & A1).
      eapply ends_bind; [eapply (h_prep _ IH) with (r := ToRest ta n (has_text U bi "pa") rest'); [cbn [tail_size]; lia|exact Ft|exact (did_ctx _ _ _ _ _ _ _ _ _ D V C)|exact K|exact (did_said _ _ _ _ _ _ _ _ _ D)|cbn [arg_case]; auto 10]|]. intros [z r''] s3 _. tot.
    - easy_step E1. destruct a0 as [b x]. easy_step E2. easy_step E3. destruct (bset_content _ _ _ _ _ _ _ _ _ _ _ _ _ _ _ D E1 E2) as (rs & B3 & V3 & T3).
      destruct (bset_the _ _ _ _ _ _ _ _ _ _ _ _ B3 E3) as (W3 & S3 & V4 & H4 & J4).
      eapply ends_bind; [eapply (h_prep _ IH) with (r := ToVar (n_next t1)); [cbn [tail_size]; lia|exact Ft|eapply ctx_ran; [exact C|exact (z_ran _ _ _ _ _ _ _ S3)|congruence]|exact K|exact (z_now S3)|cbn [arg_case]; rewrite H4; split; [exact T3|right; exact J4]]|].
      intros [z r''] s5 _. tot. }
  assert (Adv : 0 < size t0 -> is_adverb t0 = true -> ends (fun v f => do '(sub, rest') <- run U ol v f _ (KPrenex a n bi rest) ; do '(b, x) <- new_binding QUnset false ; do _ <- restrict_content b x sub ; do free <- has_free_vars v sub ;
      if (free : bool) then do _ <- set_quantifier b QAll ; do s <- run U ol v f _ (KAdverb t0 x) ; do z <- bind_scope v (Some b) s ; ret (z, t0 :: rest')
      else do _ <- set_quantifier b QThe ; do _ <- add_the b ; do z <- run U ol v f _ (KAdverb t0 x) ; ret (z, t0 :: rest')) s).
  { intros Pos Ip. clear Two Prep. eapply ends_bind; [eapply (h_pren _ IH); [|eassumption..]; lia|]. intros [sub rest'] s1 Y. eapply y_pren in Y; [|eassumption..]. destruct Y as (F & t1 & W1 & D & V & Ts & Ls & _). cbv beta iota.
    easy_step E0. destruct a0 as [b x]. easy_step E1. assert (Dm := did_more _ _ _ _ _ _ _ _ _ _ _ _ _ D (content_steps _ _ _ _ _ _ _ _ _ _ _ _ _ _ _ D E0 E1)).
    apply (ends_bind (fun v _ => has_free_vars v sub)); [eapply did_free_ends, Dm|]. intros fr s2' Y. given Y. destruct (did_free _ _ _ _ _ _ _ _ _ _ _ _ Dm C Y) as (-> & ->).
    destruct (bset_content _ _ _ _ _ _ _ _ _ _ _ _ _ _ _ D E0 E1) as (rs & B3 & V3 & T3). destruct (free_in g F).
    - easy_step E3. destruct (bset_quant _ _ _ _ _ _ _ _ _ _ _ _ _ _ _ B3 E3) as (B4 & V4 & T4). destruct (bset_ctx _ _ _ _ _ _ _ _ _ _ _ _ _ B4 C ltac:(congruence)) as (C4 & C4').
      assert (D4 := dida_bset _ _ _ _ _ _ _ _ _ _ _ _ _ _ _ (in_scope g (n_next t1) true) B4 (T4 _ _ T3) C4' ltac:(apply closed_scope, K) eq_refl
        ltac:(eapply fine_named with (g' := in_scope g (n_next t1) true); [reflexivity|]; destruct D as (X & S & A' & Fi); apply fine_clause; [eapply fine_weak; [exact Fi|]; intros y [J|J]; [left; right; exact J|right; exact J]|left; left; reflexivity])).
      destruct (dida_facts _ _ _ _ _ _ _ _ _ _ _ _ _ D4) as (C5 & K5 & S5 & T5 & I5 & In5 & G5 & On5).
      eapply ends_bind; [eapply (h_adv _ IH); [lia|eassumption..]|]. intros y s5 Y'. eapply y_adv in Y'; [|eassumption..]. destruct Y' as (G & t5 & W5 & D5 & V5).
      apply (ends_bind (fun v _ => bind_scope v (Some b) y)); [eapply scope_ends; eassumption|]. intros; tot.
    - easy_step E3. easy_step E4. destruct (bset_quant _ _ _ _ _ _ _ _ _ _ _ _ _ _ _ B3 E3) as (B4 & V4 & T4). destruct (bset_the _ _ _ _ _ _ _ _ _ _ _ _ B4 E4) as (W3 & S3 & V5 & H5 & J5).
      eapply ends_bind; [eapply (h_adv _ IH) with (y := n_next t1); [lia|exact Ft|eapply ctx_ran; [exact C|exact (z_ran _ _ _ _ _ _ _ S3)|congruence]|exact K|exact (z_now S3)|rewrite H5; apply T4, T3|right; exact J5]|]. intros; tot. }
  destruct t0; try discriminate; try (tot; fail); cbn [covered size] in Ft, L, Two.
  - (* linked *) clear Prep Adv. eapply (case_halts t0 _
              (fun v f b x =>
                 do pos <- lift (go_pos U go) ;
                 do '(s, rest') <- run U ol v f _ (KPrenex (add_at a x pos) n bi rest) ;
                 do z <- bind_scope v b s ;
                 ret (z, NLinked go t0 :: rest'))
              (fun v f ru l r =>
                 do l <- assert arguments l ; do r <- assert arguments r ;
                 do c <- lift (connector U ru) ;
                 do '(x, terms1) <- run U ol v f _ (KPrenex a n bi (NLinked go l :: rest)) ;
                 do '(y, terms2) <- run U ol v f _ (KPrenex a n bi (NLinked go r :: tl terms1)) ;
                 do z <- alloc (CConnection c x y) ;
                 ret (z, terms2))); [lia|eassumption..| |].
    + intros bo x s1 b v g' t1 W1 D. lifted. eapply rest_halts; try eassumption. lia.
    + intros f m ru l r -> Fl Frr. asserted. asserted. lifted. apply Two; cbn [covered size]; try assumption; lia.
  - (* argument *) clear Prep Adv Two. cbn [size] in L. eapply ends_bind; [eapply (h_arg _ IH); [cbn [size]; lia|eassumption..]|]. intros [bo x] s1 Y. eapply y_arg in Y; [|eassumption..]. destruct Y as (b & v & g' & t1 & W1 & D). cbv beta iota.
    eapply (ends_bind (fun _ _ => _)); [apply ends_total; destruct bo; [destruct (negb _ && negb _)%bool; [apply total_set_focus|apply total_ret]|apply total_ret]|].
    intros u s2 E0. apply yields_const in E0.
    assert (D' : exists fo, dida g t s W s2 t1 W1 bo x b v fo g').
    { destruct bo as [bo|]; [|minv E0; subst; exists false; exact D]. destruct (negb (is_none focus) && negb (has_text U bi "pa"))%bool; [exists true; eapply dida_focus; eauto|minv E0; subst; exists false; exact D]. }
    destruct D' as (fo & D'). eapply rest_halts; try eassumption. lia.
  - apply Adv; [cbn [size]; lia|reflexivity].
  - apply Prep; [cbn [size]; lia|reflexivity].
  - destruct k; try (tot; fail).
    + (* term sets *) clear Prep Adv Two. destruct t0_1; try (tot; fail). destruct t0_2; try (tot; fail). cbn [covered size] in Ft, L. apply andb_prop in Ft. destruct Ft as [Fl Frr]. lifted.
      assert (Sz : forall l, sizes (prepend rest l) = sizes l + sizes rest) by (intros; unfold prepend; apply sizes_app).
      assert (P1 : forallb cov (prepend rest ts) = true) by (unfold prepend; rewrite forallb_app, Fr, Fl; reflexivity).
      assert (P2 : forallb cov (prepend rest ts0) = true) by (unfold prepend; rewrite forallb_app, Fr, Frr; reflexivity).
      eapply ends_bind; [eapply (h_pren _ IH); try eassumption; rewrite Sz; unfold sizes in *; lia|]. intros [x t1] s1 Y. eapply y_pren in Y; [|eassumption..]. destruct Y as (F & t2 & W2 & D & V & _). cbv beta iota.
      destruct (did_args _ _ _ _ _ _ _ _ _ _ _ D Ra A) as (R1 & A1).
      eapply ends_bind; [eapply (h_pren _ IH); [rewrite Sz; unfold sizes in *; lia|assumption|exact P2|exact (did_ctx _ _ _ _ _ _ _ _ _ D V C)|exact K|exact (did_said _ _ _ _ _ _ _ _ _ D)|exact R1|exact A1]|]. intros [y t3] s2 _. tot.
    + (* arguments *) clear Prep Adv. apply andb_prop in Ft. destruct Ft as [Fl Frr]. destruct (has_text U ru "roi").
      * eapply ends_bind; [eapply (h_roi _ IH); [lia|eassumption..]|]. intros [bo x] s1 Y. eapply y_roi in Y; [|eassumption..]. destruct Y as (b & v & g' & t1 & W1 & D). cbv beta iota. eapply rest_halts; try eassumption. lia.
      * asserted. asserted. lifted. apply Two; try assumption; lia.
    + apply Adv; [cbn [size]; lia|reflexivity].
    + apply Prep; [cbn [size]; lia|reflexivity].
Qed.
End Step.

Theorem run_halts : forall N, hyps N.
Proof.
  induction N as [|N IH]; [split; intros; lia|]. split; intros; apply halt_run; cbn [body].
  - eapply (sentence_halts N IH); eassumption.
  - eapply (subordinate_halts N IH); [lia|eassumption..].
  - eapply (statement_halts N IH); eassumption.
  - eapply (predicate_halts N IH); eassumption.
  - eapply (po_halts N IH); [lia|eassumption..].
  - eapply (prenex_halts N IH); eassumption.
  - eapply (preposition_halts N IH); [lia|eassumption..].
  - eapply (by_halts N IH); [lia|eassumption..].
  - eapply (adverb_halts N IH); [lia|eassumption..].
  - eapply (roi_halts N IH); [lia|eassumption..].
  - eapply (left_halts N IH); [lia|eassumption..].
  - eapply (right_halts N IH); [lia|eassumption..].
  - eapply (argument_halts N IH); eassumption.
  - eapply (relative_halts N IH); [lia|eassumption..].
Qed.
End Halt.
