(** What Interpret returns for a text with clauses means what the text means. *)

From Coq Require Import String NArith List Bool Arith Lia.
From Verif Require Import Base Utf8 PegSyntax Tone Ast AstSorts Logic LogicWords LogicSpec ScopeSpec Interp OrderFacts SeqFacts TermFacts LogicApi ScopeFacts ScopeInterp ScopeRun Meaning MeaningFacts Clauses ClauseHeap ClauseHoa ClauseSimp ClauseRun ClauseStep ClauseBind ClauseSpecs ClauseArgs ClauseFront.
From Verif Require Simplify MeaningEnd MeaningApi.
From Verif Require ScopeSimp.
Notation bare_nth := ScopeSimp.bare_nth.
Import ListNotations.
Open Scope string_scope.
Open Scope list_scope.
Open Scope nat_scope.

Definition around (l : list (nat * form)) (G : form) : form := fold_right (fun b G => Limits QThe (fst b) false (snd b) G) G l.
Notation told0 := (Told 0 [] []).

Lemma said0 : said told0 st0 [].
Proof. destruct MeaningEnd.said0 as [A B C D E]. split; cbn; [reflexivity|exact B|constructor|constructor|intros k x []|intros [|i] c x H; discriminate]. Qed.
Lemma ctx0 : ctx scene0 st0.
Proof. split; [constructor|constructor|intros x fl []]. Qed.
Lemma closed0 : closed scene0.
Proof. split; [intros v x []|discriminate]. Qed.

Section End_.
Variables (U : unicode) (ol : list (N * N)) (vf : nat).
Notation cov := (covered U ol).

Lemma items_clauses fuel : forall d o s o' s' t W oF, all_items U ol vf fuel d o s = Ok (o', s') -> (forall n, In n d -> sentence_item n -> cov n = true) ->
  steps st0 told0 [] [] s t W -> s_vars s = [] -> optional (fun x F => did scene0 told0 st0 [] s t W x F) o oF ->
  exists oF' t' W', says_items U ol t oF d oF' t' /\ optional (fun x F => did scene0 told0 st0 [] s' t' W' x F) o' oF' /\ steps st0 told0 [] [] s' t' W'.
Proof.
  induction d as [|n d IHd]; intros o s o' s' t W oF H Fo S Ev R; cbn [all_items] in H.
  - minv H. subst. exists oF, t, W. split; [constructor|auto].
  - assert (Fo' : forall m, In m d -> sentence_item m -> cov m = true) by (intros m I; apply Fo; right; exact I).
    destruct (is_fragment n) eqn:Fn.
    { destruct (IHd _ _ _ _ _ _ _ H Fo' S Ev R) as (oF' & t' & W' & A & B & D). exists oF', t', W'. split; [constructor; [apply MeaningEnd.item_fragment, Fn|exact A]|auto]. }
    destruct (is_sentence n) eqn:Sn; [|discriminate]. apply MeaningEnd.item_sentence in Sn.
    assert (Fn' : cov n = true) by (apply Fo; [left; reflexivity|exact Sn]).
    assert (C : ctx scene0 s) by (eapply ctx_ran; [exact ctx0|exact (z_ran _ _ _ _ _ _ _ S)|exact Ev]).
    minv H. destruct (c_sent _ _ _ (run_clauses U ol vf fuel) _ _ _ _ _ _ E Fn' C (z_now S)) as (F & t1 & W1 & A1 & D1 & V1).
    inversion R as [K1 K2|x0 G0 R0 K1 K2]; subst.
    + assert (D := did_after _ _ _ _ _ _ _ _ _ _ _ _ S D1).
      destruct (IHd _ _ _ _ _ _ (Some F) H Fo' (did_steps _ _ _ _ _ _ _ _ _ D) ltac:(congruence) ltac:(constructor; exact D)) as (oF' & t' & W' & A & B & E').
      exists oF', t', W'. split; [econstructor; eassumption|auto].
    + minv H. destruct (did_conn _ _ _ _ _ _ _ _ _ _ _ _ _ _ _ _ _ R0 D1 E0) as (D & V).
      destruct (IHd _ _ _ _ _ _ (Some (Joined KAnd G0 F)) H Fo' (did_steps _ _ _ _ _ _ _ _ _ D) ltac:(congruence) ltac:(constructor; exact D)) as (oF' & t' & W' & A & B & E').
      exists oF', t', W'. split; [econstructor; eassumption|auto].
Qed.

Lemma outers_split h : forall l1 W l2 m, outers h W (l1 ++ l2) m -> exists W1 W2 m1 m2, outers h W1 l1 m1 /\ outers h W2 l2 m2 /\ m = m1 ++ m2 /\ W = W1 ++ W2.
Proof.
  induction l1 as [|e l1 IH]; intros W l2 m A; cbn [app] in A.
  - exists [], W, [], m. split; [constructor|auto].
  - inversion A as [|b x rs R l m0 Y W0 B F A' K1 K2 K3]; subst. destruct (IH _ _ _ A') as (W1 & W2 & m1 & m2 & A1 & A2 & -> & ->).
    exists (b :: Y ++ W1), W2, (b :: m1), m2. split; [econstructor; eassumption|]. split; [exact A2|]. split; [reflexivity|]. cbn [app]. rewrite app_assoc. reflexivity.
Qed.

Lemma bind_all_at : forall outer l r G s o s' k X W, bind_all vf (rev l) (Some r) s = Ok (o, s') ->
  outers (s_heap s) W outer l -> at_f (s_heap s) X r G -> once (X ++ W) -> nums (s_heap s) k -> ordered (s_heap s) ->
  exists r' X', o = Some r' /\ at_f (s_heap s') X' r' (around outer G) /\ once X' /\ nums (s_heap s') k /\ ordered (s_heap s').
Proof.
  intros outer. induction outer as [|[n R] outer IHo] using rev_ind; intros l r G s o s' k X W H Ou A On Nu Or.
  - inversion Ou; subst. cbn in H. minv H. subst. exists r, X. split; [reflexivity|]. split; [exact A|]. split; [exact (once_l _ _ On)|auto].
  - destruct (outers_split _ _ _ _ _ Ou) as (W1 & W2 & m1 & m2 & O1 & O2 & -> & ->). inversion O2 as [|b x rs R' l' m' Y W3 B Ar O3 K1 K2 K3]; subst. inversion O3; subst.
    rewrite app_nil_r in *. rewrite rev_unit in H. cbn [bind_all] in H. minv H.
    unfold bind_scope in E. destruct vf as [|vf'] eqn:Ev; [discriminate|]. cbn [bind_scope_fuel] in E. minv E. apply get_binding_ok in E0. destruct E0 as [-> B0].
    rewrite B in B0. injection B0 as Hq Hn Hf Hr Hs. rewrite <- Hs in E. minv E. minv E. subst a s0.
    apply set_scope_ok in E0. destruct E0 as (q1 & n1 & f1 & r1 & c1 & B1 & ->). rewrite B in B1. injection B1 as <- <- <- <- <-.
    assert (K : keeps (s_heap s) (s_heap (put s b (CBinding QThe n false (Some rs) (Some r)))) (fun i => i <> b)).
    { eapply keeps_put; [exact B|reflexivity|]. intros ? ? ? ? ? E. injection E as <- <- <- <- <-. eauto 6. }
    assert (Cb : forall i, cnt X i + (cnt W1 i + ((if b =? i then 1 else 0) + cnt Y i)) <= 1). { intros i. specialize (On i). rewrite !cnt_app, cnt_cons in On. exact On. }
    assert (Nb : forall Z i, (forall j, cnt Z j = cnt X j \/ cnt Z j = cnt W1 j \/ cnt Z j = cnt Y j) -> In i Z -> i <> b).
    { intros Z i HZ I ->. apply cnt_in in I. specialize (Cb b). rewrite Nat.eqb_refl in Cb. destruct (HZ b) as [J|[J|J]]; lia. }
    destruct (IHo m1 b (Limits QThe n false R G) _ _ _ k (b :: Y ++ X) W1 H) as (r' & X' & -> & Rf & On' & Nf & Or').
    + eapply outers_keep; [exact K|exact O1|]. intros i I. eapply (Nb W1); auto.
    + econstructor 4; [apply set_nth_same; eapply nth_lt, B|eapply keeps_f; [exact K|exact Ar|]; intros i I; eapply (Nb Y); auto|eapply keeps_f; [exact K|exact A|]; intros i I; eapply (Nb X); auto].
    + intros i. specialize (Cb i). cbn [app]. rewrite cnt_cons, !cnt_app. lia.
    + eapply nums_put; eassumption.
    + apply ordered_put; [exact Or|reflexivity].
    + exists r', X'. split; [reflexivity|]. split; [|auto]. unfold around in *. rewrite fold_right_app. exact Rf.
Qed.

Theorem discourse_clauses fuel d r s : discourse U ol vf fuel d st0 = Ok (Some r, s) -> (forall n, In n d -> sentence_item n -> cov n = true) ->
  exists G t k X, says_items U ol told0 None d (Some G) t /\ at_f (s_heap s) X r (around (n_outer t) G) /\ once X /\ nums (s_heap s) k /\ ordered (s_heap s).
Proof.
  unfold discourse. intros H Fo. minv H. minv H. injection E0 as <- <-.
  destruct (items_clauses _ _ _ _ _ _ _ _ None E Fo (steps_refl _ _ _ said0) eq_refl ltac:(constructor)) as (oF & t & W & It & Op & S).
  inversion Op as [K1 K2|x G D K1 K2]; subst.
  - destruct (s_the s0) as [|b l] eqn:Es; [cbn in H; minv H; discriminate|]. cbn [rev] in H. destruct (rev l ++ [b]) eqn:Er; [destruct (rev l); discriminate|]. discriminate.
  - destruct D as (X & Sx & A & _). destruct (bind_all_at (n_outer t) _ _ G _ _ _ (s_n s0) X W H (d_outer _ _ _ (z_now S)) A) as (r' & X' & K & Rf & On & Nf & Or).
    + destruct Sx as [_ _ _ _ (V & EV & F)]. cbn in EV. subst W. intros i. destruct (F i) as [K|[K _]]; lia.
    + exact (d_nums _ _ _ (z_now S)).
    + exact (d_order _ _ _ (z_now S)).
    + injection K as ->. exists G, t, (s_n s0), X'. auto 8.
Qed.
End End_.

(** ** Renumbering *)

Definition bnumber (h : heap) (r : ref) : nat := match nth_error h r with Some (CBinding _ n _ _ _) => n | _ => 0 end.

Section Shows.
Variables (h h1 : heap).
Hypothesis B : bare h = bare h1.
Notation bn := (bnumber h1).
Notation name := (MeaningApi.number h1).

Ltac cell E := let c' := fresh "c" in let E' := fresh "E'" in let X := fresh "X" in
  destruct (MeaningApi.same_cell h h1 B _ _ E) as (c' & E' & X); destruct c'; try discriminate; cbn in X; injection X; intros; subst.

Lemma var_shows r v : rthing h1 r v -> shows_var h bn name r v.
Proof.
  intros [r' n d f E (q & f' & rs & sc & N)|r' n E]; cell E.
  - replace n with (bn d) by (unfold bnumber; rewrite N; reflexivity). econstructor 1; eassumption.
  - replace n with (name r') by (unfold MeaningApi.number; rewrite E; reflexivity). econstructor 2; eassumption.
Qed.
Lemma property_shows r p : rprop h1 r p -> shows_property h bn name r p.
Proof.
  induction 1 as [r s E|r t T|r x y p q E Hp IHp Hq IHq]; [cell E; constructor 1; assumption|constructor 2; apply var_shows; assumption|cell E; econstructor 3; eassumption].
Qed.
Lemma at_shows :
  (forall X r F, at_f h1 X r F -> shows h bn name r F) /\
  (forall X r F, at_p h1 X r F -> shows_p h bn name r F) /\
  (forall X r F, at_t h1 X r F -> shows_t h bn name r F) /\
  (forall X xs F, at_r h1 X xs F -> shows_r h bn name xs F).
Proof.
  apply at_ind.
  - intros r x xs p l X Y E _ Hp _ Hl. cell E. econstructor 1; eassumption.
  - intros r c x y F G X Y E _ Hp _ Hl. cell E. econstructor 2; eassumption.
  - intros r q n f s G X E _ H. replace n with (bn r) by (unfold bnumber; rewrite E; reflexivity). cell E. econstructor 3; eassumption.
  - intros r q n f x s R G X Y E _ Hp _ Hl. replace n with (bn r) by (unfold bnumber; rewrite E; reflexivity). cell E. econstructor 4; eassumption.
  - intros. constructor. apply property_shows; assumption.
  - intros r x F X E _ H. cell E. econstructor; eassumption.
  - intros. constructor. apply var_shows; assumption.
  - intros r s f E. cell E. constructor; assumption.
  - intros r x F X E _ H. cell E. econstructor; eassumption.
  - intros r xs l X E _ H. cell E. econstructor; eassumption.
  - constructor.
  - intros. constructor; assumption.
  - intros. constructor; assumption.
Qed.
Lemma bnumber_one k r r' : nums h1 k -> is_binding h r = true -> is_binding h r' = true -> bn r = bn r' -> r = r'.
Proof.
  intros Nu. assert (Bi : forall r, is_binding h r = true -> exists n, num h1 r n /\ bn r = n).
  { intros i. unfold is_binding. assert (X := bare_nth _ _ i B). unfold num, bnumber. destruct (nth_error h i) as [c|]; [|discriminate]. destruct c; try discriminate. intros _.
    destruct (nth_error h1 i) as [c|]; [|discriminate]. destruct c; try discriminate. eauto 8. }
  intros H H' E. destruct (Bi _ H) as (n & N & Q), (Bi _ H') as (n' & N' & Q'). eapply (u_one _ _ Nu); [exact N|]. replace n with n' by congruence. exact N'.
Qed.
End Shows.

Theorem clauses_mean U d r h : outcome U d (Ok (Some (r, h))) ->
  (forall n, In n d -> sentence_item n -> covered U (o_letters diacritic) n = true) ->
  exists F bn name, conveys U (o_letters diacritic) d F /\ shows h bn name r F /\
    (forall x y, is_binding h x = true -> is_binding h y = true -> bn x = bn y -> x = y) /\
    (forall x y, unbound h x = true -> unbound h y = true -> name x = name y -> x = y).
Proof.
  intros [_ [fuel O]] Fo. specialize (O fuel (le_n _)). unfold Simplify.interpret in O.
  destruct (discourse U (o_letters diacritic) fuel fuel d st0) as [[[x|] s]| |] eqn:D; cbn [bind] in O; try discriminate.
  destruct (discourse_clauses _ _ _ _ _ _ _ D Fo) as (G & t & k & X & It & A & On & Nu & _). clear D.
  unfold Simplify.simplify_statement in O. destruct (Simplify.add_hoa fuel x None (Simplify.SSt (s_heap s) [])) as [[u s1]| |] eqn:Ha; cbn [bind] in O; try discriminate.
  destruct (proj1 (hoa_all fuel) _ _ _ _ _ _ _ None Ha A On ltac:(constructor)) as (A1 & M1 & _). cbn [fst snd Simplify.x_heap Simplify.x_sub] in *.
  unfold Simplify.pred_vars in O. destruct (visited (Simplify.x_heap s1) fuel x) as [l| |] eqn:V; cbn [bind] in O; try discriminate.
  rewrite (proj1 (pred_vars_at _) _ _ _ A1 _ _ V) in O.
  destruct (Simplify.simplify _ fuel Simplify.RStatement x (Simplify.SSt (Simplify.x_heap s1) [])) as [[o s2]| |] eqn:Si; cbn [bind] in O; try discriminate.
  destruct (proj1 (simp_all _ fuel) _ _ _ _ X _ [] (fun _ => False) Si A1 On ltac:(auto) ltac:(constructor)) as (r' & X' & -> & A2 & _ & _ & M2). cbn [Simplify.x_heap] in M2.
  destruct (Simplify.sequence_var_nums fuel (Simplify.x_heap s2) r') as [h2| |] eqn:Sq; cbn [bind] in O; try discriminate. injection O as -> ->.
  assert (B : bare h = bare (Simplify.x_heap s2)).
  { unfold Simplify.sequence_var_nums in Sq. destruct (visited (Simplify.x_heap s2) fuel r) as [l'| |]; cbn [bind] in Sq; try discriminate. eapply renumber_bare, Sq. }
  assert (N2 := moves_nums _ _ _ _ M2 (moves_nums _ _ _ _ M1 Nu)).
  eexists _, (bnumber (Simplify.x_heap s2)), (MeaningApi.number (Simplify.x_heap s2)). split; [|split; [|split]].
  - exists G, t. split; [exact It|reflexivity].
  - eapply at_shows; [exact B|exact A2].
  - intros y z. eapply bnumber_one; eassumption.
  - intros y z. eapply MeaningApi.number_one; eassumption.
Qed.
