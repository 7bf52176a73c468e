(** The interpreter computes the meaning of clauses: arguments. *)

From Coq Require Import String NArith List Bool Arith Lia.
From Verif Require Import Base PegSyntax Ast AstSorts Logic LogicWords LogicSpec ScopeSpec Interp OrderFacts SeqFacts TermFacts ScopeFacts ScopeInterp ScopeRun Meaning MeaningFacts Clauses ClauseHeap ClauseRun ClauseStep ClauseBind ClauseSpecs.
From Verif Require MeaningStep MeaningArgs.
Import ListNotations.
Open Scope string_scope.
Open Scope list_scope.
Open Scope nat_scope.

Lemma var_binding v q s b s0 x s1 u s2 t W : alloc (CBinding q 0 false None None) s = Ok (b, s0) -> push_var v b s0 = Ok (x, s1) -> set_binding b (Bnd q x false None None) s1 = Ok (u, s2) -> said t s W ->
  steps s t W [b] s2 (up_to t (S (n_next t))) W /\ x = n_next t /\ nth_error (s_heap s2) b = Some (CBinding q x false None None) /\ s_vars s2 = (v, b) :: s_vars s.
Proof.
  intros A P B Sd. apply alloc_ok in A. destruct A as [-> ->]. unfold push_var in P. minv P. injection E as <- <-. injection P as <- <-. injection B as <- <-.
  cbn [s_heap s_n s_the s_hi s_lifted s_hoa s_vars with_heap b_q b_n b_focus b_restr b_scope] in *. set (s2 := with_heap _ _) in *.
  assert (H2 : s_heap s2 = s_heap s ++ [CBinding q (s_n s) false None None]).
  { cbn [s2 with_heap s_heap]. clear. induction (s_heap s) as [|c h IHh]; [reflexivity|]. cbn. f_equal. exact IHh. }
  set (s1 := St (s_heap s) (S (s_n s)) (s_the s) (s_hi s) (s_lifted s) (s_hoa s) (s_vars s)).
  destruct (steps_new (fun x => CBinding q x false None None) s (s_n s) s1 (length (s_heap s)) (with_heap s1 (s_heap s ++ [CBinding q (s_n s) false None None])) t W eq_refl eq_refl ltac:(eauto 6) Sd) as (S3 & Ex & N3 & V3).
  split; [|split; [exact Ex|split; [change (nth_error (s_heap s2) (length (s_heap s)) = Some (CBinding q (s_n s) false None None)); rewrite H2; exact N3|reflexivity]]].
  eapply steps_end; [exact S3|exact H2|reflexivity..].
Qed.
Lemma ctx_naming g s b x v q f rs sc s' : ctx g s -> grows (s_heap s) (s_heap s') -> s_hoa s' = s_hoa s -> s_vars s' = (v, b) :: s_vars s -> nth_error (s_heap s') b = Some (CBinding q x f rs sc) ->
  ctx (naming g v x (counted q)) s'.
Proof.
  intros [V H B] G Eo Ev N. split; cbn [naming v_vars v_hoa v_bound]; rewrite ?Eo, ?Ev in *.
  - constructor; [split; [reflexivity|eexists _, _, _, _; exact N]|]. eapply forall2_weak; [exact V|]. intros y z [P Q]. split; [exact P|eapply num_grows; eassumption].
  - eapply optional_weak; [exact H|]. intros. eapply num_grows; eassumption.
  - intros y fl [J|J]; [injection J as <- <-; eauto 8|]. destruct (B _ _ J) as (d & q' & f' & rs' & sc' & N' & Fl). exists d, q', f', rs', sc'. split; [apply G, N'|exact Fl].
Qed.
Lemma said_lifted t s W k b x u s' : set_lifted k b s = Ok (u, s') -> said t s W -> num (s_heap s) b x -> In x (onames t) -> said (lifted_as t k x) s' W.
Proof.
  intros H [N Nu L O K Or] Nb J. inversion H; subst. split; cbn [lifted_as n_next n_lifted n_outer s_n s_heap s_lifted s_the]; [exact N|exact Nu| |exact O| |exact Or].
  - constructor; [split; [reflexivity|exact Nb]|exact L].
  - intros k' y [E|I]; [injection E as <- <-; exact J|eapply K, I].
Qed.
Lemma steps_lifted s t W X s1 t1 W1 k b x u s2 : steps s t W X s1 t1 W1 -> set_lifted k b s1 = Ok (u, s2) -> num (s_heap s1) b x -> In x (onames t1) -> steps s t W X s2 (lifted_as t1 k x) W1.
Proof.
  intros [A0 R N A (V & E & F)] H Nb J. assert (A' := said_lifted _ _ _ _ _ _ _ _ H A Nb J). inversion H; subst. split; auto; [destruct R; split; assumption|]. exists V. auto.
Qed.

Lemma among_part s b ay s2 m s3 l s4 ax v g t W : new_binding QAll false s = Ok (b, ay, s2) -> alloc (CPred "≺") s2 = Ok (m, s3) -> alloc (CPredication m [Some ay; Some ax]) s3 = Ok (l, s4) ->
  ctx g s -> closed g -> said t s W -> rthing (s_heap s) ax v -> var_in g t v ->
  steps s t W [b] s3 (up_to t (S (n_next t))) W /\ nth_error (s_heap s3) b = Some (CBinding QAll (n_next t) false None None) /\
  did (in_scope g (n_next t) true) (up_to t (S (n_next t))) s3 W s4 (up_to t (S (n_next t))) W l (some_of (n_next t) v) /\
  ctx (in_scope g (n_next t) true) s4 /\ closed (in_scope g (n_next t) true) /\ rthing (s_heap s4) ay (Bound (n_next t) false) /\ s_vars s4 = s_vars s /\
  nth_error (s_heap s4) b = Some (CBinding QAll (n_next t) false None None) /\ s_vars s3 = s_vars s /\ ctx (in_scope g (n_next t) true) s3 /\ rthing (s_heap s3) ay (Bound (n_next t) false).
Proof.
  intros E E0 E1 C K Sd T I.
  destruct (steps_binding _ _ _ _ _ _ _ _ E Sd) as (S2 & N2 & T2 & V2). destruct (steps_leaf _ _ _ _ _ _ E0 eq_refl (z_now S2)) as (S3 & N3 & V3).
  assert (S23 := z_trans S2 S3). cbn [app] in S23. assert (B3 := z_grows S3 _ _ N2).
  assert (T3 := thing_grows _ _ _ _ (z_grows S3) T2). assert (T3' := thing_grows _ _ _ _ (z_grows S23) T).
  destruct (did_named _ "≺" [ay; ax] [Bound (n_next t) false; v] _ _ _ (in_scope g (n_next t) true) (up_to t (S (n_next t))) W E1 N3) as (D4 & V4); [repeat (constructor; [assumption|]); constructor| |exact (z_now S3)|].
  { intros u [<-|[<-|[]]]; [left; left; reflexivity|]. eapply var_next; [| |exact I]; [apply incl_tl, incl_refl|apply incl_refl]. }
  assert (K4 : closed (in_scope g (n_next t) true)) by (apply closed_scope, K). assert (V23 : s_vars s3 = s_vars s) by congruence.
  assert (C3 : ctx (in_scope g (n_next t) true) s3) by (eapply ctx_scope; [eapply ctx_ran; [exact C|exact (z_ran _ _ _ _ _ _ _ S23)|exact V23]|exact B3|reflexivity]).
  split; [exact S23|]. split; [exact B3|]. split; [exact D4|]. split; [|split; [exact K4|split; [eapply did_thing; eassumption|split; [congruence|split; [eapply did_nth; eassumption|auto]]]]].
  eapply did_ctx; [exact D4|exact V4|exact C3].
Qed.

Section Args.
Variables (U : unicode) (ol : list (N * N)) (vf : nat).
Notation cov := (covered U ol).
Variable self : forall A, call A -> Interp.M A.
Hypothesis IH : cspecs U ol self.

Definition arg_done (s : st) (W : list ref) (s' : st) (bo : option ref) (x : ref) (g : scene) (t : told) (f q : option word) (p : node) (rel : option node) : Prop :=
  exists b v g' t' W', stands U ol g t f q p rel b v g' t' /\ dida g t s W s' t' W' bo x b v false g'.
Notation okrel rel := (match rel with None => true | Some n => cov n end = true).

(** A relative clause about the binding [b]. *)
Lemma rel_part b n s r s1 g t W x : self _ (KRelative (Some b) n) s = Ok (r, s1) -> cov n = true -> ctx g s -> closed g -> said t s W -> num (s_heap s) b x -> In x (bnames g) ->
  exists F t' W', limits U ol g t x (Some n) (Some F) t' /\ did g t s W s1 t' W' r F /\ s_vars s1 = s_vars s.
Proof.
  intros H Fo C K Sd Nb J. destruct (c_rel _ _ _ IH _ _ _ _ _ g (about g x) _ _ H Fo C K ltac:(exists x; auto) Sd) as (F & t' & W' & A & D & V). exists F, t', W'. split; [constructor; exact A|auto].
Qed.

Lemma var_ok v f q p rel s bo x s' g t W : var_argument U self v q rel s = Ok (bo, x, s') -> okrel rel -> ctx g s -> closed g -> said t s W ->
  seen_at t (place p) = None -> is_variable U ol p = Some v -> arg_done s W s' bo x g t f q p rel.
Proof.
  intros H Fr C K Sd Lf Iv. unfold var_argument in H. destruct q as [w|].
  - minv H. unfold lift in E. destruct (quantifier U (Some w)) as [q0| |] eqn:Q; try discriminate. injection E as <- <-. apply quantifies_quantifier in Q.
    minv H. minv H. minv H. destruct (var_binding _ _ _ _ _ _ _ _ _ _ _ E E0 E1 Sd) as (S1 & -> & N1 & V1). clear E E0 E1. minv H. destruct (steps_leaf _ _ _ _ _ _ E eq_refl (z_now S1)) as (S2 & N2 & V2). clear E.
    minv H. minv H. injection H as <- <-. subst. rename a into b. rename a0 into ay. assert (S12 := z_trans S1 S2). cbn [app] in S12. assert (B2 := z_grows S2 _ _ N1).
    assert (V12 : s_vars s3 = (v, b) :: s_vars s) by congruence. set (g1 := naming g v (n_next t) (counted q0)).
    assert (C2 : ctx g1 s3) by (eapply ctx_naming; [exact C|exact (z_grows S12)|exact (r_hoa _ _ (z_ran _ _ _ _ _ _ _ S12))|exact V12|exact B2]).
    assert (K2 : closed g1) by (apply closed_naming, K). assert (Nb : num (s_heap s3) b (n_next t)) by (eexists _, _, _, _; exact B2).
    assert (T2 : rthing (s_heap s3) ay (Bound (n_next t) false)) by (econstructor; eassumption).
    destruct rel as [n|].
    + minv E. destruct (rel_part _ _ _ _ _ g1 _ _ (n_next t) E0 Fr C2 K2 (z_now S2) Nb ltac:(left; reflexivity)) as (F & t' & W' & A & D & V).
      destruct (bset_restrict _ _ _ _ _ _ _ _ _ _ _ _ _ _ _ _ _ _ S12 B2 D E) as (B3 & V3 & T3 & C3).
      eexists _, _, _, t', W'. split; [eapply AQuantifies; eassumption|]. eapply dida_bset; [exact B3|apply T3; eapply did_thing; [exact D|exact T2]|apply C3; eapply did_ctx; eassumption|exact K2|reflexivity|].
      eapply fine_named with (g' := g1); [reflexivity|]. destruct D as (X & _ & _ & Fi). exact Fi.
    + minv E. subst. eexists _, _, _, _, W. split; [eapply AQuantifies; try eassumption; constructor|]. fold g1.
      exists [b]. split; [exact S12|]. split; [constructor; exact B2|]. split; [exact T2|]. split; [left; left; reflexivity|]. split; [exact C2|]. split; [exact K2|]. split; [exact I|].
      split; [intros y J; right; exact J|]. intros y [<-|J]; [right; left; reflexivity|left; exact J].
  - minv H. minv H. destruct (lookup_at _ _ _ _ _ _ E (k_vars _ _ C) _ _ _ _ Sd E0) as (th & i & L & T & S1 & V1 & J). clear E E0.
    assert (Ith : var_in g (up_to t i) th) by (destruct th as [y fo|y]; cbn; [left; eapply c_vars; eassumption|exact I]).
    assert (C1 : ctx g s1) by (eapply ctx_ran; [exact C|exact (z_ran _ _ _ _ _ _ _ S1)|exact V1]).
    destruct rel as [rn|]; [|minv H; injection H as <- <-; subst; eexists _, _, _, _, W; split; [eapply AVariable'; eassumption|apply dida_none; assumption]].
    minv H. minv H. minv H. minv H. minv H. minv H. minv H. injection H as <- <-. subst.
    destruct (among_part _ _ _ _ _ _ _ _ _ _ _ _ _ E E0 E1 C1 K (z_now S1) T Ith) as (S3 & B3 & D4 & C4 & K4 & T4 & V4 & B4 & V3 & C3 & T3). cbn [up_to n_next] in *.
    destruct (rel_part _ _ _ _ _ (in_scope g i true) _ _ i E2 Fr C4 K4 (did_said _ _ _ _ _ _ _ _ _ D4) ltac:(eexists _, _, _, _; exact B4) ltac:(left; reflexivity)) as (F & t' & W' & A & D5 & V5).
    destruct (did_conn _ _ _ _ _ _ _ _ _ _ _ _ _ _ _ _ _ D4 D5 E3) as (D6 & V6). assert (S13 := z_trans S1 S3). cbn [app] in S13.
    destruct (bset_restrict _ _ _ _ _ _ _ _ _ _ _ _ _ _ _ _ _ _ S13 B3 D6 E4) as (B7 & V7 & T7 & C7).
    eexists _, _, _, t', W'. split; [eapply AVariableLimited; eassumption|]. eapply dida_bset; [exact B7| | |exact K4|reflexivity|].
    + apply T7. eapply did_thing; [exact D6|exact T3].
    + apply C7. eapply did_ctx; [exact D6| |exact C3]. congruence.
    + eapply fine_named with (g' := in_scope g i true); [reflexivity|]. destruct D6 as (X & _ & _ & Fi). exact Fi.
Qed.

Lemma hoa_ok f q p rel s bo x s' g t W : hoa_argument self q rel s = Ok (bo, x, s') -> okrel rel -> ctx g s -> closed g -> said t s W ->
  seen_at t (place p) = None -> is_variable U ol p = None -> is_hoa U p = true -> arg_done s W s' bo x g t f q p rel.
Proof.
  intros H Fr C K Sd Lf Iv Ih. unfold hoa_argument in H. minv H. injection E as <- <-. assert (Hn := k_hoa _ _ C). destruct (s_hoa s) as [|d hs] eqn:Es; cbn [hd_error] in Hn.
  - inversion Hn. minv H. minv H. minv H. injection H as <- <-. subst. destruct (steps_free _ _ _ _ _ _ _ E E0 Sd) as (S1 & T1 & V1).
    eexists _, _, _, _, W. split; [apply AHoaFree; auto|]. apply dida_none; [exact S1|exact T1|exact I|eapply ctx_ran; [exact C|exact (z_ran _ _ _ _ _ _ _ S1)|exact V1]|exact K].
  - inversion Hn as [|d' y Nm E1 E2]; subst. symmetry in E2. minv H. apply get_binding_ok in E. destruct E as [-> B]. assert (Ey : y = b_n a) by (destruct Nm as (q1 & f1 & rs1 & sc1 & Nm); congruence). subst y.
    minv H. destruct (steps_leaf _ _ _ _ _ _ E eq_refl Sd) as (S1 & N1 & V1). clear E. rename a0 into ax.
    assert (T1 : rthing (s_heap s0) ax (Bound (b_n a) false)) by (econstructor; [exact N1|eapply num_grows; [exact (z_grows S1)|exact Nm]]).
    assert (C1 : ctx g s0) by (eapply ctx_ran; [exact C|exact (z_ran _ _ _ _ _ _ _ S1)|exact V1]).
    assert (I1 : var_in g t (Bound (b_n a) false)) by (left; eapply c_hoa; eauto).
    assert (Go : (q <> None \/ rel <> None) -> (do '(b, ay) <- new_binding QAll false ; do among <- alloc (CPred "≺") ; do l <- alloc (CPredication among [Some ay; Some ax]) ; do _ <- set_restriction b l ;
          do _ <- match rel with Some n => do r <- self _ (KRelative (Some b) n) ; do s <- alloc (CConnection KAnd l r) ; set_restriction b s | None => ret tt end ;
          ret (Some b, ay)) s0 = Ok (bo, x, s') -> arg_done s W s' bo x g t f q p rel).
    { clear H. intros Ne H. minv H. minv H. minv H. minv H. minv H. minv H. injection H as <- <-. subst.
      destruct (among_part _ _ _ _ _ _ _ _ _ _ _ _ _ E E0 E1 C1 K (z_now S1) T1 I1) as (S3 & B3 & D4 & C4 & K4 & T4 & V4 & B4 & V3 & C3 & T3). assert (S13 := z_trans S1 S3). cbn [app] in S13.
      destruct (bset_restrict _ _ _ _ _ _ _ _ _ _ _ _ _ _ _ _ _ _ S13 B3 D4 E3) as (B5 & V5 & T5 & C5). assert (T5' := T5 _ _ T4). assert (C5' := C5 _ C4).
      assert (Fi4 : fine (inS (in_scope g (n_next t) true) (up_to t (S (n_next t)))) (events (some_of (n_next t) (Bound (b_n a) false)))) by (destruct D4 as (X & _ & _ & Fi); exact Fi).
      destruct rel as [rn|].
      - minv E4. minv E4. assert (Nb : exists rs, nth_error (s_heap s4) r = Some (CBinding QAll (n_next t) false (Some rs) None)) by (destruct B5 as (Y & _ & B5 & _); eauto). destruct Nb as (rs & Nb).
        assert (S5 : said (up_to t (S (n_next t))) s4 W) by (destruct B5 as (Y & B5 & _); exact (z_now B5)).
        destruct (rel_part _ _ _ _ _ (in_scope g (n_next t) true) _ _ (n_next t) E5 Fr C5' K4 S5 ltac:(eexists _, _, _, _; exact Nb) ltac:(left; reflexivity)) as (F & t' & W' & A & D6 & V6).
        destruct (bset_and _ _ _ _ _ _ _ _ _ _ _ _ _ _ _ _ _ _ _ _ _ _ B5 D6 E6 E4) as (B7 & V7 & T7 & C7).
        eexists _, _, _, t', W'. split; [eapply AHoaLimited with (R := Some F); eauto|]. cbn [and_also]. eapply dida_bset; [exact B7|apply T7; eapply did_thing; eassumption|apply C7; eapply did_ctx; eassumption|exact K4|reflexivity|].
        eapply fine_named with (g' := in_scope g (n_next t) true); [reflexivity|]. cbn [events]. destruct D6 as (X & S6 & _ & Fi). apply fine_app'; [|exact Fi]. eapply fine_next; [exact (z_names _ _ _ _ _ _ _ S6)|exact Fi4].
      - minv E4. subst. eexists _, _, _, _, W. split; [eapply AHoaLimited with (R := None); eauto; constructor|]. cbn [and_also]. eapply dida_bset; [exact B5|exact T5'|exact C5'|exact K4|reflexivity|].
        eapply fine_named with (g' := in_scope g (n_next t) true); [reflexivity|exact Fi4]. }
    destruct q as [w|], rel as [rn|]; try (apply Go; [auto; try (left; discriminate); right; discriminate|exact H]).
    minv H. injection H as <- <-. subst. eexists _, _, _, t, W. split; [eapply AHoaBound; eauto|]. apply dida_none; assumption.
Qed.

Lemma make_in p l vs s x s' g g1 t W : make_predication self p l s = Ok (x, s') -> cov p = true -> ctx g s -> closed g -> said t s W -> incl (bnames g) (bnames g1) ->
  Forall2 (rthing (s_heap s)) l vs -> (forall v, In v vs -> var_in g1 t v) ->
  exists P t' W', predicates U ol g t p P t' /\ did g1 t s W s' t' W' x (said_of P (row_of (map Some vs))) /\ s_vars s' = s_vars s.
Proof.
  intros H Fo C K Sd I R A. unfold make_predication, predication in H. minv H. destruct (c_pred _ _ _ IH _ _ _ _ _ _ _ E Fo C K Sd) as (P & t' & W' & Pr & D & V & _).
  destruct D as (X & Z & B & Fi). assert (D1 : didp g1 t s W s0 t' W' a P) by (exists X; split; [exact Z|split; [exact B|]]; eapply fine_pc_weak; [|exact Fi]; intros y [J|J]; [left; apply I, J|right; exact J]).
  destruct (did_make _ _ _ _ _ _ _ _ _ _ vs _ _ D1 ltac:(eapply forall2_weak; [exact R|]; intros; eapply thing_grows; [exact (z_grows Z)|assumption])
    ltac:(intros v J; eapply var_next; [apply incl_refl|exact (z_names _ _ _ _ _ _ _ Z)|auto]) H) as (D2 & V2).
  exists P, t', W'. split; [exact Pr|]. split; [exact D2|congruence].
Qed.

Lemma plain_ok f q p rel s bo x s' g t W : predicate_argument U ol vf self f q p rel s = Ok (bo, x, s') -> cov (NPredArg f q p rel) = true -> ctx g s -> closed g -> said t s W ->
  arg_done s W s' bo x g t f q p rel.
Proof.
  intros H Fo C K Sd. cbn [covered] in Fo. apply andb_prop in Fo. destruct Fo as [Fp Fr]. unfold predicate_argument in H.
  minv H. injection E as <- <-. pose proof (MeaningArgs.lift_find _ (key p) _ _ (d_lift _ _ _ Sd)) as Lf. destruct (find _ (s_lifted s)) as [[k b]|] eqn:Fi.
  - destruct Lf as (y & Ly & Ny). minv H. apply get_binding_ok in E. destruct E as [-> Bd]. minv H. minv H. injection H as <- <-. subst.
    assert (Ey : y = b_n a) by (destruct Ny as (q1 & f1 & r1 & c1 & K1); congruence). subst y.
    destruct (steps_leaf _ _ _ _ _ _ E eq_refl Sd) as (S1 & N1 & V1).
    eexists _, _, _, t, W. split; [apply ASeen; exact Ly|]. apply dida_none; [exact S1|econstructor; [exact N1|eapply num_grows; [exact (z_grows S1)|exact Ny]]| |eapply ctx_ran; [exact C|exact (z_ran _ _ _ _ _ _ _ S1)|exact V1]|exact K].
    right. unfold seen_at in *. destruct (find _ (n_lifted t)) as [[k' y]|] eqn:Fd; [|discriminate]. injection Ly as ->. apply find_some in Fd. eapply d_lok; [exact Sd|exact (proj1 Fd)].
  - clear Fi. fold (seen_at t (place p)) in Lf. destruct (is_variable U ol p) as [v|] eqn:Iv; [eapply var_ok; eassumption|]. destruct (is_hoa U p) eqn:Ih; [eapply hoa_ok; eassumption|].
    andb. rename H0 into Fq. rename H1 into Fp. minv H. unfold lift in E. destruct (quantifier U q) as [qq| |] eqn:Q; try discriminate. injection E as <- <-.
    assert (Nh : qq <> QHi).
    { intros ->. destruct q as [w|]; [|discriminate]. apply quantifier_hi in Q. rewrite Q in Fq. discriminate. }
    apply quantifies_quantifier in Q. minv H. rename r into b. rename r0 into a. destruct (steps_binding _ _ _ _ _ _ _ _ E Sd) as (S1 & B1 & T1 & V1). clear E. rename s0 into s1. rewrite MeaningArgs.given_some in T1.
    assert (C1 : ctx g s1) by (eapply ctx_ran; [exact C|exact (z_ran _ _ _ _ _ _ _ S1)|exact V1]).
    set (g1 := in_scope g (n_next t) (counted qq)). assert (K1 : closed g1) by (apply closed_scope, K). assert (Cg1 : ctx g1 s1) by (eapply ctx_scope; [exact C1|exact B1|reflexivity]).
    minv H. destruct (make_in _ _ [Bound (n_next t) (given f)] _ _ _ g g1 (up_to t (S (n_next t))) W E Fp C1 K (z_now S1)) as (P & t1 & W1 & Pr & D2 & V2); [apply incl_tl, incl_refl|constructor; [exact T1|constructor]|intros v [<-|[]]; left; left; reflexivity|].
    clear E. rename s0 into s2. rename a0 into r1. set (R1 := said_of P (row_of (map Some [Bound (n_next t) (given f)]))) in *.
    minv H. destruct (bset_restrict _ _ _ _ _ _ _ _ _ _ _ _ _ _ _ _ _ _ S1 B1 D2 E) as (B3 & V3 & T3 & C3). clear E. rename s0 into s3.
    assert (T3' := T3 _ _ (did_thing _ _ _ _ _ _ _ _ _ _ _ D2 T1)). assert (Cg3 := C3 _ (did_ctx _ _ _ _ _ _ _ _ _ D2 V2 Cg1)).
    assert (F3 : fine (inS g1 t1) (events R1)) by (destruct D2 as (X & _ & _ & Fi); exact Fi).
    minv H. rename s0 into s4.
    assert (Fin : exists R0 t' W' rs, limits U ol g1 t1 (n_next t) rel R0 t' /\ bset s t W s4 t' W' b qq (n_next t) false rs (and_also R1 R0) /\ s_vars s4 = s_vars s /\
      fine (inS g1 t') (events (and_also R1 R0)) /\ rthing (s_heap s4) a (Bound (n_next t) (given f)) /\ ctx g1 s4).
    { destruct rel as [rn|].
      - minv E. minv E. assert (Nb : exists rs, nth_error (s_heap s3) b = Some (CBinding qq (n_next t) false (Some rs) None)) by (destruct B3 as (Y & _ & B3 & _); eauto). destruct Nb as (rs & Nb).
        assert (S3 : said t1 s3 W1) by (destruct B3 as (Y & B3 & _); exact (z_now B3)).
        destruct (rel_part _ _ _ _ _ g1 _ _ (n_next t) E0 Fr Cg3 K1 S3 ltac:(eexists _, _, _, _; exact Nb) ltac:(left; reflexivity)) as (F & t' & W' & A & D6 & V6).
        destruct (bset_and _ _ _ _ _ _ _ _ _ _ _ _ _ _ _ _ _ _ _ _ _ _ B3 D6 E1 E) as (B7 & V7 & T7 & C7).
        eexists (Some F), t', W', _. split; [exact A|]. split; [exact B7|]. split; [congruence|]. split; [|split; [apply T7; eapply did_thing; eassumption|apply C7; eapply did_ctx; eassumption]].
        cbn [and_also events]. destruct D6 as (X & S6 & _ & Fi). apply fine_app'; [|exact Fi]. eapply fine_next; [exact (z_names _ _ _ _ _ _ _ S6)|exact F3].
      - minv E. subst. eexists None, _, _, _. split; [constructor|]. split; [exact B3|]. split; [congruence|]. split; [exact F3|]. split; [exact T3'|exact Cg3]. }
    clear E B3 V3 T3' Cg3 F3 T3 C3. destruct Fin as (R0 & t' & W' & rs & A & B & Vs & F4 & T4 & C4). set (R := and_also R1 R0) in *.
    assert (Open : qq <> QThe -> bo = Some b -> x = a -> s' = s4 -> arg_done s W s' bo x g t f q p rel).
    { intros Nq -> -> ->. assert (Cq : counted qq = true) by (destruct qq; try reflexivity; congruence). unfold g1 in *. rewrite Cq in *.
      eexists _, _, _, t', W'. split; [eapply ADescribed; try eassumption; reflexivity|]. eapply dida_bset; [exact B|exact T4|exact C4|exact K1|reflexivity|].
      eapply fine_named with (g' := in_scope g (n_next t) true); [reflexivity|exact F4]. }
    destruct qq; try contradiction; try (minv H; injection H as <- <-; apply Open; auto; discriminate). clear Open. cbn [counted] in g1.
    minv H. assert (F5 : fine (inS g t') (inl (n_next t) :: events R)) by (eapply fine_named with (g' := g1); [reflexivity|exact F4]).
    destruct (bset_free _ _ _ _ _ _ _ _ _ _ _ _ _ _ _ _ B C F5 E) as (-> & ->). clear E. destruct (free_in g R) eqn:Fr'.
    + minv H. minv H. injection H as <- <-. subst. destruct (bset_quant _ _ _ _ _ _ _ _ _ _ _ _ _ _ _ B E) as (B6 & V6 & T6).
      eexists _, _, _, t', W'. split; [eapply ATheFree; try eassumption; reflexivity|].
      destruct (bset_ctx _ _ _ _ _ _ _ _ _ _ _ _ _ B6 C ltac:(congruence)) as (C6 & C7). eapply dida_bset; [exact B6|apply T6, T4|exact C7|apply closed_scope, K|reflexivity|exact F5].
    + minv H. minv H. minv H. injection H as <- <-. subst.
      set (sA := St (s_heap s4) (s_n s4) (s_the s4 ++ [b]) (s_hi s4) (s_lifted s4) (s_hoa s4) (s_vars s4)).
      destruct (bset_the _ _ _ _ _ _ _ _ _ _ tt sA B eq_refl) as (W2 & S6 & V6 & H6 & J6). injection E as <-. injection E0 as <-. set (sB := St _ _ _ _ _ _ _).
      assert (S7 : steps s t W [] sB (lifted_as (bound_outside t' (n_next t) R) (place p) (n_next t)) W2).
      { eapply (steps_lifted _ _ _ _ sA _ _ (key p) b _ tt); [exact S6|reflexivity| |exact J6]. destruct B as (Y & _ & B & _). eexists _, _, _, _. exact B. }
      eexists _, _, _, _, W2. split; [eapply AThe; try eassumption; reflexivity|]. apply dida_none; [exact S7|exact T4|right; exact J6| |exact K].
      eapply ctx_ran; [exact C|exact (z_ran _ _ _ _ _ _ _ S7)|exact Vs].
Qed.
End Args.
