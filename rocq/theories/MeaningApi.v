(** What Interpret returns for a first-order text means what the text means. *)

From Coq Require Import String NArith List Bool Arith Lia.
From Verif Require Import Base Utf8 PegSyntax Tone Ast AstSorts Logic LogicWords LogicSpec ScopeSpec Interp Simplify OrderFacts SeqFacts TermFacts LogicApi ScopeFacts ScopeNum ScopeInterp ScopeRun ScopeSimp Meaning MeaningFacts MeaningNames MeaningRun MeaningStep MeaningBody MeaningArgs MeaningSpecs MeaningEnd MeaningHoa.
Import ListNotations.
Open Scope string_scope.
Open Scope list_scope.
Open Scope nat_scope.

Definition number (h : heap) (r : ref) : nat := match nth_error h r with Some (CVariable n _ _) => n | _ => 0 end.

Section Reads.
Variables (h h1 : heap) (k : nat).
Hypothesis B : bare h = bare h1.
Hypothesis Nu : nums h1 k.

(** [env] has the bindings of the variables in [l]. *)
Definition covers (env : list (nat * ref)) (l : list nat) : Prop := forall y, In y l -> exists d, bound_to env y = Some d /\ num h1 d y.

Lemma same_cell r c : nth_error h1 r = Some c -> exists c', nth_error h r = Some c' /\ unnumbered c' = unnumbered c.
Proof.
  intros E. assert (X := bare_nth _ _ r B). rewrite E in X. destruct (nth_error h r) as [c'|]; [|discriminate]. injection X as X. eauto.
Qed.
Ltac cell E := let c' := fresh "c" in let E' := fresh "E'" in let X := fresh "X" in
  destruct (same_cell _ _ E) as (c' & E' & X); destruct c'; try discriminate; cbn in X; injection X; intros; subst.

Lemma covers_sub env l l' : (forall y, In y l' -> In y l) -> covers env l -> covers env l'.
Proof. intros S C y I. apply C, S, I. Qed.
Lemma thing_reads env r t : rthing h1 r t -> covers env (of_thing t) -> reads_thing h (number h1) env r t.
Proof.
  intros H C. destruct H as [r n d f E N|r n E]; cell E.
  - destruct (C n ltac:(left; reflexivity)) as (d' & L & N'). assert (d' = d) by (eapply (u_one _ _ Nu); eassumption). subst d'. econstructor 1; eassumption.
  - replace n with (number h1 r) by (unfold number; rewrite E; reflexivity). econstructor 2; eassumption.
Qed.
Lemma prop_reads env r p : rprop h1 r p -> covers env (of_property p) -> reads_property h (number h1) env r p.
Proof.
  induction 1 as [r s E|r t T|r x y p q E Hp IHp Hq IHq]; intros C.
  - cell E. constructor 1. assumption.
  - constructor 2. apply thing_reads; assumption.
  - cell E. econstructor 3; [eassumption|apply IHp|apply IHq]; eapply covers_sub; [|exact C| |exact C]; intros z I; cbn; apply in_or_app; auto.
Qed.
Lemma args_read env xs l : Forall2 (optional (rthing h1)) xs l -> covers env (of_args l) -> Forall2 (optional (reads_thing h (number h1) env)) xs l.
Proof.
  induction 1 as [|x o xs l O H IH]; intros C; constructor.
  - destruct O as [|a b O]; constructor. apply thing_reads; [exact O|]. eapply covers_sub; [|exact C]. intros y I. unfold of_args. cbn. rewrite app_nil_r. apply in_or_app. auto.
  - apply IH. eapply covers_sub; [|exact C]. intros y I. unfold of_args. cbn. apply in_or_app. auto.
Qed.
Lemma form_reads env r F : rform h1 r F -> covers env (outside F) -> reads h (number h1) env r F.
Proof.
  intros H. revert env. induction H as [r x xs p l E Hp Ha|r c a b F G E Hf IHf Hg IHg|r q m f s F E Hf IHf|r q m f x s R F E Hr IHr Hf IHf]; intros env C; cbn [outside] in C.
  - cell E. econstructor 1; [eassumption|apply prop_reads; [exact Hp|]|apply args_read; [exact Ha|]]; (eapply covers_sub; [|exact C]); intros y I; apply in_or_app; auto.
  - cell E. econstructor 2; [eassumption|apply IHf|apply IHg]; (eapply covers_sub; [|exact C]); intros y I; apply in_or_app; auto.
  - assert (N : num h1 r m) by (do 4 eexists; exact E). cell E. econstructor 3; [eassumption|]. apply IHf. intros y I. unfold bound_to. cbn [find fst].
    destruct (Nat.eqb_spec m y) as [<-|Ne]; [exists r; auto|]. destruct (C y) as (d & L & D); [|exists d; auto].
    apply filter_In. split; [exact I|]. apply negb_true_iff, Nat.eqb_neq. congruence.
  - assert (N : num h1 r m) by (do 4 eexists; exact E). cell E. 
    assert (C' : covers ((m, r) :: env) (outside R ++ outside F)).
    { intros y I. unfold bound_to. cbn [find fst].
      destruct (Nat.eqb_spec m y) as [<-|Ne]; [exists r; auto|]. destruct (C y) as (d & L & D); [|exists d; auto].
      apply filter_In. split; [exact I|]. apply negb_true_iff, Nat.eqb_neq. congruence. }
    econstructor 4; [eassumption|apply IHr|apply IHf]; (eapply covers_sub; [|exact C']); intros y I; apply in_or_app; auto.
Qed.
Lemma number_one r r' : unbound h r = true -> unbound h r' = true -> number h1 r = number h1 r' -> r = r'.
Proof.
  rewrite !(unbound_bare _ _ _ B). unfold unbound, number.
  destruct (nth_error h1 r) as [[]|] eqn:E; try discriminate; destruct def; try discriminate.
  destruct (nth_error h1 r') as [[]|] eqn:E'; try discriminate; destruct def; try discriminate.
  intros _ _ ->. eapply (u_same _ _ Nu); eassumption.
Qed.
End Reads.

Theorem first_order_means U d r h : outcome U d (Ok (Some (r, h))) ->
  (forall n, In n d -> sentence_item n -> first_order U (o_letters diacritic) n = true) ->
  exists F name, means U (o_letters diacritic) d F /\ reads h name [] r F /\
    forall x y, unbound h x = true -> unbound h y = true -> name x = name y -> x = y.
Proof.
  intros [_ [fuel O]] Fo. specialize (O fuel (le_n _)). unfold interpret in O.
  destruct (discourse U (o_letters diacritic) fuel fuel d st0) as [[[x|] s]| |] eqn:D; cbn [bind] in O; try discriminate.
  destruct (discourse_means _ _ _ _ _ _ _ D Fo) as (G & t & k & It & Rg & Nu).
  apply discourse_closed in D; [|exact Fo]. destruct D as [W _ S Or' _ F].
  assert (C0 : closed x (s_heap s)) by (split; assumption).
  unfold simplify_statement in O. destruct (add_hoa fuel x None (SSt (s_heap s) [])) as [[u s1]| |] eqn:A; cbn [bind] in O; try discriminate.
  destruct (hoa_filled _ _ _ C0 Nu _ _ _ _ A Rg) as [Rf Nf].
  apply hoa_closed with (root := x) in A; [|exact C0|discriminate]. destruct A as (C & _ & Sx). cbn [fst snd x_heap x_sub] in *.
  destruct (pred_vars fuel (x_heap s1) x) as [pv| |]; cbn [bind] in O; try discriminate.
  destruct (simplify pv fuel RStatement x (SSt (x_heap s1) [])) as [[o s2]| |] eqn:Si; cbn [bind] in O; try discriminate.
  apply simplify_plain in Si; [|exact (w_fo _ (c_wf _ _ C))|reflexivity]. destruct Si as [-> ->]. cbn [x_heap] in O.
  destruct (sequence_var_nums fuel (x_heap s1) x) as [h2| |] eqn:Sq; cbn [bind] in O; try discriminate. injection O as -> ->.
  assert (B : bare h = bare (x_heap s1)).
  { unfold sequence_var_nums in Sq. destruct (visited (x_heap s1) fuel r) as [l| |]; cbn [bind] in Sq; try discriminate. eapply renumber_bare, Sq. }
  exists (filled None (around (t_outer t) G)), (number (x_heap s1)). repeat match goal with |- _ /\ _ => split end.
  - exists G, t. split; [exact It|reflexivity].
  - eapply form_reads; [exact B|exact Nf|exact Rf|]. intros y I. destruct (form_free _ _ Nf _ _ _ Rf I) as (d' & _ & K). destruct (c_free _ _ C _ K).
  - intros y z. eapply number_one; eassumption.
Qed.
