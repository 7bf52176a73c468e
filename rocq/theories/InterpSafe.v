(** Interpreting a tree whose parts are of the right categories and whose words are all
    known never panics: every method returns a node of the right type. *)

From Coq Require Import String NArith List Bool Arith Lia.
From Verif Require Import Base PegSyntax Ast AstSorts Logic LogicWords LogicSpec Interp OrderFacts SafeBase.
Import ListNotations.
Open Scope string_scope.
Open Scope list_scope.
Open Scope nat_scope.

Definition ok (U : unicode) (l : list shape) (n : node) : Prop :=
  among l n = true /\ well_sorted n = true /\ supported U n = true.

(** ** Bindings moved to the end of a clause *)

Lemma clear_vars_safe P scope l : forall s, inv_ P s -> (forall x, In x l -> exists c, nth_error (s_heap s) x = Some c) ->
  safe (clear_vars scope l) s (fun _ s' => inv_ P s' /\ keeps (s_heap s) (s_heap s') /\ s_the s' = s_the s /\ s_hi s' = s_hi s).
Proof.
  induction l as [|r l IH]; intros s I H; cbn [clear_vars].
  - apply safe_ret. auto using keeps_refl.
  - destruct (H r (or_introl eq_refl)) as [c E]. apply safe_bind. unfold safe, get. rewrite E.
    assert (K : safe (clear_vars scope l) s (fun _ s' => inv_ P s' /\ keeps (s_heap s) (s_heap s') /\ s_the s' = s_the s /\ s_hi s' = s_hi s)).
    { apply IH; [exact I|]. intros x X. apply H. right. exact X. }
    destruct c; try exact K. destruct (match def with Some x => memb x scope | None => false end); [exact K|].
    apply safe_bind. unfold safe, new_var. apply safe_bind. unfold safe, set.
    set (h' := set_nth r (CVariable (s_n s) None focus) (s_heap s)).
    assert (L : keeps (s_heap s) h') by (eapply keeps_set; [exact E|split; reflexivity]).
    assert (I1 : inv_ P (with_heap s h')).
    { apply inv_heap; [exact I|exact L|]. eapply good_set; [exact E|intros t T; eapply like_has; [split; reflexivity|exact T]|exact (i_good _ _ I)|].
      cbn. discriminate. }
    assert (I2 : inv_ P (with_heap (St (s_heap s) (S (s_n s)) (s_the s) (s_hi s) (s_lifted s) (s_hoa s) (s_vars s)) h')) by (destruct I1; split; assumption).
    eapply safe_weaken; [apply IH; [exact I2|]|].
    + intros x X. cbn. destruct (H x (or_intror X)) as [y Y]. destruct (L _ _ Y) as (y' & Y' & _). eauto.
    + cbn. intros _ s' (J & K' & T & Hh). split; [exact J|]. split; [eapply keeps_trans; eassumption|auto].
Qed.

Lemma bind_his_safe vf P l : forall scope x s, inv_ P s -> (forall b, In b l -> open (s_heap s) b /\ ~ In b P) -> NoDup l ->
  is (s_heap s) TStmt x ->
  safe (bind_his vf scope l x) s (fun y s' => inv_ P s' /\ is (s_heap s') TStmt y /\
    (forall h0, keeps h0 (s_heap s) -> Forall (le (length h0)) l -> keeps h0 (s_heap s')) /\ s_the s' = s_the s /\ s_hi s' = s_hi s).
Proof.
  induction l as [|b l IH]; intros scope x s I O N X; cbn [bind_his].
  - apply safe_ret. auto 6.
  - destruct (O b (or_introl eq_refl)) as [Ob Nb]. inversion N as [|? ? Nl Nd]; subst. apply safe_bind.
    unfold safe, clear_hi_free_var_defs. assert (Ob' := Ob). destruct Ob' as (q0 & n0 & f0 & rs0 & E0).
    assert (V := visited_safe _ (i_good _ _ I) vf _ _ E0). destruct (visited (s_heap s) vf b) as [vs| |]; cbn [bind]; [|contradiction|exact Logic.I].
    assert (Cv := clear_vars_safe P (b :: scope) vs s I V). unfold safe in Cv.
    destruct (clear_vars (b :: scope) vs s) as [[u s1]| |]; [|contradiction|exact Logic.I].
    destruct Cv as (I1 & K1 & T1 & H1). apply safe_bind. unfold bind_scope. destruct vf as [|vf']; [exact Logic.I|]. cbn [bind_scope_fuel].
    destruct (open_like _ _ _ K1 Ob) as (q & n & f & rs & E1).
    apply safe_bind, safe_get_binding; [eexists; split; [exact E1|reflexivity]|]. intros q' n' f' rs' sc' E'. rewrite E1 in E'. injection E' as <- <- <- <- <-.
    cbn [b_scope]. apply safe_bind. unfold set_scope. apply safe_bind, safe_get_binding; [eexists; split; [exact E1|reflexivity]|].
    intros q' n' f' rs' sc' E'. rewrite E1 in E'. injection E' as <- <- <- <- <-. unfold safe at 1, set_binding, set. cbn [b_q b_n b_focus b_restr b_scope].
    assert (X1 : is (s_heap s1) TStmt x) by (apply (keeps_grows _ _ K1), X).
    destruct (inv_close P s1 b q n f rs x I1 E1 Nb X1) as (I2 & C & B). apply safe_ret.
    set (s2 := with_heap s1 (set_nth b (CBinding q n f rs (Some x)) (s_heap s1))) in *.
    eapply safe_weaken; [apply (IH (b :: scope) b s2 I2)|].
    + intros y Y. destruct (O y (or_intror Y)) as [Oy Ny]. split; [|exact Ny]. destruct (open_like _ _ _ K1 Oy) as (q2 & n2 & f2 & rs2 & E2).
      exists q2, n2, f2, rs2. cbn. rewrite set_nth_other; [exact E2|]. intros ->. contradiction.
    + exact Nd.
    + exact B.
    + intros y s3 (I3 & Y & K & T & Hh). cbn [s_the s_hi with_heap s2] in T, Hh. split; [exact I3|]. split; [exact Y|]. split; [|split; congruence].
      intros h0 K0 F. inversion F as [|? ? Fb Fl]; subst. apply K; [|exact Fl]. cbn. apply keeps_new; [|exact Fb]. eapply keeps_trans; eassumption.
Qed.

Lemma pending_hi s the hi : s_the s = the -> s_hi s = hi -> pending s = the ++ concat hi.
Proof. intros <- <-. reflexivity. Qed.

Lemma subordinate_safe vf (m : Interp.M ref) s : inv s ->
  (forall s1, inv s1 -> s_heap s1 = s_heap s -> s_hi s1 <> [] -> safe m s1 (fun a s' => ctx s1 s' /\ is (s_heap s') TStmt a)) ->
  safe (subordinate vf m) s (fun a s' => ctx s s' /\ is (s_heap s') TStmt a).
Proof.
  intros I H. unfold subordinate. apply safe_bind. cbn. apply safe_bind. cbn.
  set (s1 := St (s_heap s) (s_n s) (s_the s) ([] :: s_hi s) (s_lifted s) (s_hoa s) (s_vars s)).
  assert (I1 : inv s1) by (destruct I; split; assumption).
  apply safe_bind. eapply safe_weaken; [apply (H s1 I1); [reflexivity|discriminate]|]. clear H. intros a s2 [[I2 S] A].
  apply safe_bind. cbn. apply safe_bind. cbn. destruct S as [K (nt & T & Ft) (nh & Hh & Fh)]. cbn [s1 s_hi s_the s_heap] in K, T, Ft, Hh, Fh. cbn [app] in Hh.
  rewrite Hh. cbn [hd tl].
  assert (Pe : pending s2 = s_the s2 ++ nh ++ concat (s_hi s)) by (unfold pending; rewrite Hh; reflexivity).
  set (P := s_the s2 ++ concat (s_hi s)).
  assert (Nd : NoDup (nh ++ P)).
  { assert (X := i_nodup _ _ I2). rewrite Pe in X. apply (Permutation.Permutation_NoDup (l := s_the s2 ++ nh ++ concat (s_hi s))); [|exact X].
    unfold P. rewrite !app_assoc. apply Permutation.Permutation_app_tail, Permutation.Permutation_app_comm. }
  assert (Op : forall b, In b (nh ++ P) -> open (s_heap s2) b).
  { intros b B. apply (i_open _ _ I2). rewrite Pe, !in_app_iff. unfold P in B. rewrite !in_app_iff in B. tauto. }
  assert (J : inv_ P s2).
  { destruct I2. split; try assumption.
    - intros b B. apply Op, in_or_app. right. exact B.
    - clear -Nd. induction nh; [exact Nd|]. inversion Nd; auto. }
  apply safe_bind. eapply safe_weaken; [apply (bind_his_safe vf P (rev nh) (map snd (s_vars s2)) a s2 J)|].
  - intros b B. apply in_rev in B. split; [apply Op, in_or_app; left; exact B|]. intros X. clear -Nd B X.
    induction nh as [|y nh IH]; [contradiction|]. cbn [app] in Nd. inversion Nd; subst. destruct B as [<-|B]; [|auto]. apply H1, in_or_app. right. exact X.
  - apply NoDup_rev. clear -Nd. induction nh as [|y nh IH]; [constructor|]. cbn [app] in Nd. inversion Nd; subst. constructor; [|auto].
    intros X. apply H1, in_or_app. left. exact X.
  - exact A.
  - intros y s3 (I3 & Y & K3 & T3 & H3). cbn. split; [|exact Y]. split.
    + destruct I3 as [G1 G2 G3 G4 G5 G6].
      set (s4 := St (s_heap s3) (s_n s3) (s_the s3) (s_hi s) (s_lifted s3) (s_hoa s3) (s_vars s3)).
      assert (P4 : pending s4 = P) by (unfold P; rewrite <- T3; reflexivity). unfold inv. rewrite P4. split; assumption.
    + split; cbn.
      * apply K3; [exact K|]. apply Forall_forall. intros b B. apply in_rev in B. rewrite Forall_forall in Fh. apply Fh, B.
      * exists nt. rewrite T3, T. split; [reflexivity|exact Ft].
      * apply hi_ext_refl.
Qed.

(** ** Small pieces *)
Lemma content_safe x s : inv s -> is (s_heap s) TStmt x ->
  safe (make_content_pred x) s (fun r s' => ctx s s' /\ is (s_heap s') TPred r /\ is (s_heap s') TArg r).
Proof.
  intros I X. assert (C := ctx_start _ I). unfold make_content_pred. one_alloc e C Te; [exact Logic.I|]. assert (E := Te TPred eq_refl).
  one_alloc c C Tc; [exact X|]. assert (Ac := Tc TArg eq_refl).
  eapply nest; [exact C|apply lambda_safe; [exact (proj1 C)|exact E|exact Ac]|]. auto.
Qed.
Lemma new_binding_safe s0 q f s (Q : ref * ref -> st -> Prop) : ctx s0 s ->
  (forall b a s', ctx s0 s' -> later None s s' -> is (s_heap s') TBind b -> mine s' b -> length (s_heap s0) <= b -> length (s_heap s) <= b -> is (s_heap s') TArg a -> Q (b, a) s') ->
  safe (new_binding q f) s Q.
Proof.
  intros C H. unfold new_binding.
  apply safe_bind. eapply ctx_new_var; [exact C|]. intros n s1 C1 L1.
  apply safe_bind. eapply ctx_open; [exact C1|]. intros b s2 C2 L2 B Mb F F'.
  apply safe_bind. eapply ctx_alloc; [exact C2|exact (some_def (is _ TBind) _ B)|]. intros a s3 C3 L3 T.
  assert (Le := l_length _ _ _ L1). apply safe_ret, H; [exact C3| | | |exact F|lia|apply T; reflexivity].
  - eapply later_trans; [exact L1|eapply later_trans; eassumption].
  - eapply later_is; eassumption.
  - eapply later_mine; eassumption.
Qed.
Lemma restrict_content_safe s0 b a x s (Q : unit -> st -> Prop) : ctx s0 s -> is (s_heap s) TBind b -> is (s_heap s) TArg a -> is (s_heap s) TStmt x ->
  (forall s', ctx s0 s' -> later None s s' -> Q tt s') -> safe (restrict_content b a x) s Q.
Proof.
  intros C B A X H. unfold restrict_content.
  apply safe_bind. eapply nest; [exact C|apply content_safe; [exact (proj1 C)|exact X]|]. intros c s1 C1 L1 [P _]. move_to L1.
  apply safe_bind. eapply ctx_alloc; [exact C1|split; [exact P|exact (in_one (is _ TArg) _ A)]|]. intros r s2 C2 L2 T. assert (R := T TStmt eq_refl). move_to L2.
  eapply ctx_restriction; [exact C2|exact B|exact R|]. intros s3 C3 L3. apply H; [exact C3|]. eapply later_trans; [exact L1|eapply later_trans; eassumption].
Qed.

Section Safe.

Variable U : unicode.
Variable ol : list (N * N).
Variable vf : nat.

Notation ok := (ok U).

Definition quant_ok (q : option word) : Prop := exists x, quantifier U q = Ok x.
Definition terms_ok (l : list node) : Prop := Forall (ok terms_) l.
Definition arg0_ok (h : heap) (a : arg0) : Prop :=
  match a with
  | AVar r => is h TArg r
  | ATail a st bi ts => args_ok h a /\ ok statements st /\ terms_ok ts
  end.
Definition opt_ok (l : list shape) (o : option node) : Prop := match o with None => True | Some n => ok l n end.

(** What a method may rely on. *)
Definition pre {A} (c : call A) (s : st) : Prop :=
  match c with
  | KSentence n => ok sentences n
  | KSubordinate n => ok statements n
  | KStatement a n => s_hi s <> [] /\ args_ok (s_heap s) a /\ ok statements n
  | KPredicate n => s_hi s <> [] /\ ok predicates n
  | KPoArgument p a0 a1 => s_hi s <> [] /\ is (s_heap s) TPred p /\ is (s_heap s) TArg a0 /\ ok arguments a1
  | KPrenex a st _ ts => s_hi s <> [] /\ args_ok (s_heap s) a /\ ok statements st /\ terms_ok ts
  | KPreposition n a0 => s_hi s <> [] /\ ok prepositions n /\ arg0_ok (s_heap s) a0
  | KPredPreposition p a0 a1 => s_hi s <> [] /\ ok predicates p /\ arg0_ok (s_heap s) a0 /\ ok arguments a1
  | KAdverb n a => s_hi s <> [] /\ ok adverbs n /\ is (s_heap s) TArg a
  | KRoi l r => s_hi s <> [] /\ ok arguments l /\ ok arguments r
  | KRoiLeft x l r => s_hi s <> [] /\ is (s_heap s) TArg x /\ ok arguments l /\ ok arguments r
  | KRoiRight x l r => s_hi s <> [] /\ is (s_heap s) TArg x /\ is (s_heap s) TArg l /\ ok arguments r
  | KPredArg _ q p rel => s_hi s <> [] /\ quant_ok q /\ ok predicates p /\ opt_ok relatives rel
  | KRelative b n => s_hi s <> [] /\ (forall x, b = Some x -> is (s_heap s) TBind x) /\ ok relatives n
  end.
(** What it returns. *)
Definition post {A} (c : call A) (s : st) : A -> st -> Prop :=
  match c in call A return A -> st -> Prop with
  | KPredicate _ => fun p s' => pcon_ok (s_heap s') p
  | KPrenex _ _ _ _ | KPreposition _ _ | KPredPreposition _ _ _ => fun p s' => is (s_heap s') TStmt (fst p) /\ terms_ok (snd p)
  | KRoi _ _ | KPredArg _ _ _ _ => fun p s' => is (s_heap s') TArg (snd p) /\ yours s s' (fst p)
  | KSentence _ | KSubordinate _ | KStatement _ _ | KPoArgument _ _ _ | KAdverb _ _ | KRoiLeft _ _ _ | KRoiRight _ _ _ | KRelative _ _ =>
      fun r s' => is (s_heap s') TStmt r
  end.

Lemma one_of_connector w : one_of U ["ru"; "ra"; "ri"] w = true -> exists c, connector U w = Ok c.
Proof.
  unfold one_of, connector. cbn [existsb]. destruct (has_text U w "ru"); [eauto|]. destruct (has_text U w "ra"); [eauto|].
  destruct (has_text U w "ri"); [eauto|]. discriminate.
Qed.
Lemma one_of_roi w : one_of U ["ru"; "ra"; "ri"; "roi"] w = true -> has_text U w "roi" = false -> exists c, connector U w = Ok c.
Proof.
  intros H R. apply one_of_connector. unfold one_of in *. cbn [existsb] in *. rewrite R in H. exact H.
Qed.

Lemma assert_ok l n s (Q : node -> st -> Prop) : ok l n -> Q n s -> safe (assert l n) s Q.
Proof. intros (A & _) H. unfold assert. rewrite A. exact H. Qed.
Lemma ok_weaken l l' n : (forall x, In x l -> In x l') -> ok l n -> ok l' n.
Proof.
  intros H (A & B). split; [|exact B]. unfold among in *. apply existsb_exists in A. destruct A as (x & I & E). apply existsb_exists. exists x. auto.
Qed.

Variable self : forall A, call A -> Interp.M A.
Hypothesis IH : forall A (c : call A) s, inv s -> pre c s -> safe (self A c) s (fun a s' => ctx s s' /\ post c s a s').

(** ** The parts of a node *)
Ltac parts :=
  let W := fresh "W" in let S := fresh "S" in
  intros (_ & W & S); unfold InterpSafe.ok, well_sorted in *; cbn [sorted supported own connects] in W, S; cbv zeta in W;
  rewrite ?andb_true_iff in W; rewrite ?andb_true_iff in S; repeat split; tauto.
Lemma ok_sentence l je st da : ok l (NSentence je st da) -> ok statements st. Proof. parts. Qed.
Lemma ok_cop_sentence l t0 t1 ru x y : ok l (NCoP CSentence t0 t1 ru x y) -> has_text U ru "ru" = true /\ ok sentences x /\ ok sentences y. Proof. parts. Qed.
Definition plain (ru : word) : Prop := one_of U ["ru"; "ra"; "ri"] ru = true.
Lemma ok_cop_statement l t0 t1 ru x y : ok l (NCoP CStatement t0 t1 ru x y) -> plain ru /\ ok statements x /\ ok statements y. Proof. unfold plain. parts. Qed.
Lemma ok_cop_predicate l t0 t1 ru x y : ok l (NCoP CPredicate t0 t1 ru x y) -> plain ru /\ ok predicates x /\ ok predicates y. Proof. unfold plain. parts. Qed.
Lemma ok_cop_content l t0 t1 ru x y : ok l (NCoP CContent t0 t1 ru x y) -> plain ru /\ ok contents x /\ ok contents y. Proof. unfold plain. parts. Qed.
Lemma ok_cop_relative l t0 t1 ru x y : ok l (NCoP CRelative t0 t1 ru x y) -> plain ru /\ ok relatives x /\ ok relatives y. Proof. unfold plain. parts. Qed.
Lemma ok_cop_adverb l t0 t1 ru x y : ok l (NCoP CAdverb t0 t1 ru x y) -> plain ru /\ ok adverbs x /\ ok adverbs y. Proof. unfold plain. parts. Qed.
Lemma ok_cop_preposition l t0 t1 ru x y : ok l (NCoP CPreposition t0 t1 ru x y) -> plain ru /\ ok prepositions x /\ ok prepositions y. Proof. unfold plain. parts. Qed.
Lemma ok_cop_termset l t0 t1 ru x y : ok l (NCoP CTermSet t0 t1 ru x y) -> plain ru /\ ok [STerms] x /\ ok [STerms] y. Proof. unfold plain. parts. Qed.
Lemma ok_cop_argument l t0 t1 ru x y : ok l (NCoP CArgument t0 t1 ru x y) ->
  one_of U ["ru"; "ra"; "ri"; "roi"] ru = true /\ ok arguments x /\ ok arguments y. Proof. parts. Qed.
Lemma ok_prenex_stmt l p st : ok l (NPrenexStmt p st) -> ok [SPrenex] p /\ ok statements st. Proof. parts. Qed.
Lemma each_ok ts : forallb (fun x => among terms_ x && sorted (fun k _ => own k) own x) ts = true -> forallb (supported U) ts = true -> terms_ok ts.
Proof.
  intros A B. rewrite forallb_forall in A, B. apply Forall_forall. intros x X. specialize (A x X). specialize (B x X).
  apply andb_true_iff in A. destruct A. repeat split; assumption.
Qed.
Lemma ok_prenex l ts bi : ok l (NPrenex ts bi) -> terms_ok ts.
Proof.
  intros (_ & W & S). unfold well_sorted in W. cbn [sorted supported] in W, S. cbv zeta in W. rewrite !andb_true_iff in W. apply each_ok; tauto.
Qed.
Lemma ok_terms l ts : ok l (NTerms ts) -> terms_ok ts.
Proof.
  intros (_ & W & S). unfold well_sorted in W. cbn [sorted supported] in W, S. cbv zeta in W. rewrite !andb_true_iff in W. apply each_ok; tauto.
Qed.
Lemma ok_predication l p ts na : ok l (NPredication p ts na) -> ok predicates p. Proof. parts. Qed.
Lemma ok_predication_terms l p ts na t s e : ok l (NPredication p (Some ts) na) ->
  ok statements (NPrenexStmt (NPrenex ts (Wd t s e None)) (NPredication p None na)).
Proof.
  intros (_ & W & S). unfold InterpSafe.ok, well_sorted in *. cbn [sorted supported on_opt] in *. cbv zeta in *.
  rewrite !andb_true_iff in W. rewrite !andb_true_iff in S. split; [reflexivity|].
  split; [|rewrite !andb_true_iff; tauto]. destruct W as [[[W1 W2] [W3 W4]] W5]. rewrite W1, W2, W3, W4, W5. reflexivity.
Qed.
Lemma ok_serial l x y : ok l (NSerial x y) -> ok predicates x /\ ok predicates y. Proof. parts. Qed.
Lemma ok_mi l mi ga p : ok l (NMi mi ga p) -> exists m, mi_pred U mi = Ok m.
Proof.
  intros (_ & _ & S). cbn [supported] in S. unfold one_of in S. cbn [existsb] in S. unfold mi_pred.
  destruct (has_text U mi "mi"); [eauto|]. destruct (has_text U mi "shu"); [eauto|discriminate].
Qed.
Lemma ok_po l po ga a : ok l (NPo po ga a) -> (exists m, po_pred U po = Ok m) /\ ok arguments a.
Proof.
  intros H. split; [|revert H; parts]. destruct H as (_ & _ & S). cbn [supported] in S. apply andb_true_iff in S. destruct S as [S _].
  unfold one_of in S. cbn [existsb] in S. unfold po_pred. destruct (has_text U po "po"); [eauto|]. destruct (has_text U po "jei"); [eauto|discriminate].
Qed.
Lemma ok_linked l go a : ok l (NLinked go a) -> (exists m, go_pos U go = Ok m) /\ ok arguments a /\
  (forall x, ok arguments x -> ok terms_ (NLinked go x)).
Proof.
  intros H. split; [|split; [revert H; parts|]]; destruct H as (_ & W & S); cbn [supported] in S; apply andb_true_iff in S; destruct S as [S _].
  - unfold one_of in S. cbn [existsb] in S. unfold go_pos. destruct (has_text U go "fi"); [eauto|]. destruct (has_text U go "go"); [eauto|].
    destruct (has_text U go "cu"); [eauto|]. destruct (has_text U go "ta"); [eauto|discriminate].
  - intros x (A & B & C). unfold well_sorted in *. cbn [sorted] in W. cbv zeta in W. rewrite !andb_true_iff in W. split; [reflexivity|].
    unfold well_sorted. cbn [sorted supported]. cbv zeta. rewrite A, B, C, S, (proj1 W). split; reflexivity.
Qed.
Lemma ok_lu l k lu st : ok l (NLU k lu st) -> ok statements st. Proof. parts. Qed.
Lemma one_shape l n : ok l n -> (forall x, In x l -> In x statements) -> ok statements n.
Proof. intros O H. eapply ok_weaken; eassumption. Qed.
Lemma ok_pred_content l p : ok l (NPredContent p) -> ok statements p.
Proof. intros H. apply (one_shape [SPredication]); [revert H; parts|]. intros x [<-|[]]. right. left. reflexivity. Qed.
Lemma ok_pred_rel l p : ok l (NPredRel p) -> ok statements p.
Proof. intros H. apply (one_shape [SPredication]); [revert H; parts|]. intros x [<-|[]]. right. left. reflexivity. Qed.
Lemma ok_adverb l p : ok l (NAdverb p) -> ok predicates p. Proof. parts. Qed.
Lemma ok_prep l p a : ok l (NPrep p a) -> ok predicates p /\ ok arguments a. Proof. parts. Qed.
Lemma ok_pred_arg l f q p rel : ok l (NPredArg f q p rel) -> quant_ok q /\ ok predicates p /\ opt_ok relatives rel.
Proof.
  intros (_ & W & S). unfold InterpSafe.ok, well_sorted in *. cbn [sorted supported] in *. cbv zeta in *. rewrite !andb_true_iff in W. rewrite !andb_true_iff in S.
  destruct S as [[S1 S2] S3]. destruct W as [[[W1 W2] [W3 W4]] W5]. split; [|split].
  - unfold quant_ok, quantifier. destruct q as [w|]; [|eauto]. unfold one_of in S1. cbn [existsb] in S1.
    destruct (has_text U w "ke"); [eauto|]. destruct (has_text U w "ja"); [eauto|]. destruct (has_text U w "sa"); [eauto|].
    destruct (has_text U w "tu"); [eauto|]. destruct (has_text U w "sia"); [eauto|]. destruct (has_text U w "hi"); [eauto|discriminate].
  - repeat split; assumption.
  - destruct rel as [x|]; [|exact Logic.I]. cbn [on_opt] in W5. apply andb_true_iff in W5. destruct W5. repeat split; assumption.
Qed.
Lemma content_predicate n : ok contents n -> ok predicates n.
Proof. apply ok_weaken. intros x X. apply in_or_app. right. exact X. Qed.
Lemma argument_term n : ok arguments n -> ok terms_ n.
Proof. apply ok_weaken. intros x X. apply in_or_app. left. exact X. Qed.
Lemma preposition_term n : ok prepositions n -> ok terms_ n.
Proof. apply ok_weaken. intros x X. apply in_or_app. right. apply in_or_app. right. apply in_or_app. left. exact X. Qed.

(** ** Calls *)
Ltac call_ C a s R :=
  apply safe_bind; eapply nest; [exact C|apply IH; [exact (proj1 C)|]|clear C;
  let L := fresh "L" in
  intros a s C L R; move_to L; clear L; cbn [post] in R].
(** The state on entry has a clause to put bindings of hi into. *)
Ltac hi := eapply ctx_hi; [eassumption|assumption].
Ltac pres := cbn [pre arg0_ok]; repeat match goal with |- _ /\ _ => split end; try assumption; try hi.

Notation argument_case := (argument_case U self).

Lemma yours_nest s0 s s' o : ctx s0 s -> yours s s' o -> yours s0 s' o.
Proof. intros C Y b E. destruct (Y b E) as [Y1 Y2]. split; [exact Y1|]. assert (L := ctx_length _ _ C). lia. Qed.

Lemma argument_safe {A} s0 n unknown (one : option ref -> ref -> Interp.M A) two s Q : ctx s0 s -> s_hi s <> [] -> ok arguments n ->
  (forall b a s', ctx s0 s' -> later None s s' -> s_hi s' <> [] -> yours s0 s' b -> is (s_heap s') TArg a -> safe (one b a) s' Q) ->
  (forall ru l r c, connector U ru = Ok c -> ok arguments l -> ok arguments r -> safe (two ru l r) s Q) ->
  safe (argument_case n unknown one two) s Q.
Proof.
  intros C Hi O H1 H2. assert (A0 := proj1 O). unfold among in A0.
  assert (Hi' : forall s', later None s s' -> ctx s s' -> s_hi s' <> []) by (intros; eapply ctx_hi; eassumption).
  destruct n; try discriminate A0.
  - destruct (ok_pred_arg _ _ _ _ _ O) as (Oq & Op & Or). cbn [Interp.argument_case]. apply safe_bind.
    eapply safe_weaken; [apply IH; [exact (proj1 C)|]|].
    + cbn [pre]. auto.
    + intros [b a] s' [C' [Ra Rb]]. cbn [post fst snd] in *. assert (L := later_step _ _ (proj2 C')).
      apply H1; [eapply ctx_step; [exact C|exact (proj1 C')|exact (proj2 C')]|exact L|apply Hi'; assumption|eapply yours_nest; eassumption|exact Ra].
  - destruct k; try discriminate A0. destruct (ok_cop_argument _ _ _ _ _ _ O) as (Or & Ol & Orr). cbn [Interp.argument_case].
    destruct (has_text U ru "roi") eqn:E.
    + apply safe_bind. eapply safe_weaken; [apply IH; [exact (proj1 C)|cbn [pre]; auto]|].
      intros [b a] s' [C' [Ra Rb]]. cbn [post fst snd] in *. assert (L := later_step _ _ (proj2 C')).
      apply H1; [eapply ctx_step; [exact C|exact (proj1 C')|exact (proj2 C')]|exact L|apply Hi'; assumption|eapply yours_nest; eassumption|exact Ra].
    + destruct (one_of_roi _ Or E) as [c Ec]. eapply H2; eassumption.
Qed.

Ltac assert_ O := apply safe_bind; apply assert_ok; [exact O|].
Ltac connector_ P :=
  let c := fresh "c" in let E := fresh "E" in
  destruct (one_of_connector _ P) as [c E]; apply safe_bind; apply safe_lift; exists c; split; [exact E|].
Ltac finish_connection C :=
  eapply ctx_alloc; [exact C|split; assumption|let s := fresh "s" in let T := fresh "T" in intros ? s ? _ T; split; [assumption|apply T; reflexivity]].

Lemma sentence_safe n s : inv s -> ok sentences n -> safe (do_sentence U self n) s (fun a s' => ctx s s' /\ is (s_heap s') TStmt a).
Proof.
  intros I O. assert (A0 := proj1 O). assert (C := ctx_start _ I). unfold among in A0. destruct n; try discriminate A0; cbn [do_sentence].
  - eapply safe_weaken; [apply IH; [exact I|exact (ok_sentence _ _ _ _ O)]|]. intros a s' H. exact H.
  - destruct k; try discriminate A0. destruct (ok_cop_sentence _ _ _ _ _ _ O) as (E & Ol & Or). rewrite E. cbn [negb].
    assert_ Ol. call_ C x s1 Rx; [exact Ol|]. assert_ Or. call_ C y s2 Ry; [exact Or|]. finish_connection C.
Qed.

Lemma predication_safe s0 p a s (Q : ref -> st -> Prop) : ctx s0 s -> s_hi s <> [] -> ok predicates p -> args_ok (s_heap s) a ->
  (forall r s', ctx s0 s' -> later None s s' -> is (s_heap s') TStmt r -> Q r s') -> safe (predication self p a) s Q.
Proof.
  intros C Hi O A H. unfold predication. apply safe_bind. eapply nest; [exact C|apply IH; [exact (proj1 C)|split; assumption]|].
  intros c s1 C1 L1 R. cbn [post] in R. move_to L1. eapply ctx_distribute; [exact C1|exact R|exact A|].
  intros r s2 C2 L2 T. apply H; [exact C2|eapply later_trans; eassumption|exact T].
Qed.
Lemma make_predication_safe s0 p l s (Q : ref -> st -> Prop) : ctx s0 s -> s_hi s <> [] -> ok predicates p -> (forall x, In x l -> is (s_heap s) TArg x) ->
  (forall r s', ctx s0 s' -> later None s s' -> is (s_heap s') TStmt r -> Q r s') -> safe (make_predication self p l) s Q.
Proof.
  intros C Hi O A H. unfold make_predication. eapply predication_safe; [exact C|exact Hi|exact O| |exact H].
  intros x q I. apply in_map_iff in I. destruct I as (y & E & I). injection E as <- _. apply A, I.
Qed.

Lemma statement_safe a n s : inv s -> s_hi s <> [] -> args_ok (s_heap s) a -> ok statements n ->
  safe (do_statement U self a n) s (fun r s' => ctx s s' /\ is (s_heap s') TStmt r).
Proof.
  intros I Hi A O. unfold do_statement. eapply safe_weaken; [apply (safe_with_vars _ s (fun r h => is h TStmt r) I)|].
  2: { intros r s' (X & Y & Z). split; [split; assumption|exact Z]. }
  assert (C := ctx_start _ I). assert (A0 := proj1 O). unfold among in A0.
  eapply safe_weaken with (Q := fun r s' => ctx s s' /\ is (s_heap s') TStmt r).
  2: { intros r s' ((X & Y) & Z). auto. }
  destruct n; try discriminate A0.
  - destruct (ok_prenex_stmt _ _ _ O) as [O1 O2]. assert (A1 := proj1 O1). unfold among in A1. destruct n1; try discriminate A1.
    call_ C x s1 Rx; [pres; eapply ok_prenex; eassumption|]. destruct x as [x ts']. apply safe_ret. split; [exact C|exact (proj1 Rx)].
  - destruct ts as [ts|].
    + eapply safe_weaken; [apply IH; [exact I|]|intros r s' H; exact H]. cbn [pre]. split; [exact Hi|]. split; [exact A|]. eapply ok_predication_terms, O.
    + eapply predication_safe; [exact C|exact Hi|eapply ok_predication, O|exact A|]. auto.
  - destruct k; try discriminate A0. destruct (ok_cop_statement _ _ _ _ _ _ O) as (P & Ol & Or). connector_ P.
    assert_ Ol. call_ C x s1 Rx; [cbn [pre]; auto|]. assert_ Or. call_ C y s2 Ry; [pres|]. finish_connection C.
Qed.


Lemma po_predicate_safe po arg s : inv s -> s_hi s <> [] -> (exists m, po_pred U po = Ok m) -> ok arguments arg ->
  safe (po_predicate U self po arg) s (fun r s' => ctx s s' /\ is (s_heap s') TPred r).
Proof.
  intros I Hi [m E] O. assert (C := ctx_start _ I). unfold po_predicate. apply safe_bind, safe_lift. exists m. split; [exact E|].
  one_alloc p C Tp; [exact Logic.I|]. assert (P := Tp TPred eq_refl). one_var n C. one_open b C B Mb F.
  one_alloc v C Tv; [exact (some_def (is _ TBind) _ B)|]. assert (V := Tv TArg eq_refl).
  call_ C sc s5 Rs; [pres|]. apply safe_bind. eapply ctx_scope; [exact C|exact Mb|exact F|exact Rs|]. intros s6 C6 _ S6.
  eapply ctx_alloc; [exact C6|exact S6|]. intros r s7 C7 _ T. split; [exact C7|apply T; reflexivity].
Qed.

Lemma predicate_safe n s : inv s -> s_hi s <> [] -> ok predicates n ->
  safe (do_predicate U ol vf self n) s (fun p s' => ctx s s' /\ pcon_ok (s_heap s') p).
Proof.
  intros I Hi O. assert (C := ctx_start _ I). assert (A0 := proj1 O). unfold among in A0.
  destruct n; try discriminate A0; cbn [do_predicate].
  - destruct O as (_ & _ & S). discriminate S.
  - destruct (ok_serial _ _ _ O) as [Ol Or]. assert_ Ol. call_ C x s1 Rx; [pres|]. assert_ Or. call_ C y s2 Ry; [pres|].
    eapply ctx_serial; [exact C|exact Rx|exact Ry|]. auto.
  - destruct (is_variable U ol (NWordPredicate w)) as [v|].
    + apply safe_bind. eapply ctx_lookup; [exact C|]. intros x o s1 C1 _ D. apply safe_bind. eapply ctx_alloc; [exact C1|exact D|].
      intros r s2 C2 _ T. apply safe_ret. split; [exact C2|apply T; reflexivity].
    + destruct (is_hoa U (NWordPredicate w)).
      * apply safe_bind. cbn [hoa_scope safe]. assert (F := i_hoa _ _ I). destruct (s_hoa s) as [|d l].
        -- unfold safe at 1. unfold hoa_scope. one_var n C. one_alloc r C T; [discriminate|]. apply safe_ret. split; [exact C|apply T; reflexivity].
        -- unfold safe at 1. unfold hoa_scope. inversion F as [|? ? D _]; subst. apply safe_bind. eapply ctx_get_binding; [exact C|exact D|]. intros b.
           one_alloc r C T; [exact (some_def (is _ TBind) _ D)|]. apply safe_ret. split; [exact C|apply T; reflexivity].
      * one_alloc r C T; [exact Logic.I|]. apply safe_ret. split; [exact C|apply T; reflexivity].
  - destruct (ok_mi _ _ _ _ O) as [m E]. one_alloc q C Tq; [exact Logic.I|]. assert (A := Tq TArg eq_refl).
    apply safe_bind, safe_lift. exists m. split; [exact E|]. apply safe_bind.
    eapply safe_weaken with (Q := fun p s' => ctx s s' /\ is (s_heap s') TArg q /\ is (s_heap s') TPred p).
    + destruct m.
      * one_alloc c C Tc; [exact Logic.I|]. assert (Pc := Tc TPred eq_refl). eapply ctx_alloc; [exact C|exact Pc|]. intros p s2 C2 L2 T2. move_to L2.
        split; [exact C2|]. split; [exact A|apply T2; reflexivity].
      * eapply ctx_alloc; [exact C|exact Logic.I|]. intros p s2 C2 L2 T2. move_to L2. split; [exact C2|]. split; [exact A|apply T2; reflexivity].
    + intros p s2 (C2 & A2 & P2). apply safe_bind. eapply nest; [exact C2|apply lambda_safe; [exact (proj1 C2)|exact P2|exact A2]|].
      intros r s3 C3 _ [R _]. apply safe_ret. split; [exact C3|exact R].
  - destruct (ok_po _ _ _ _ O) as [E Oa]. apply safe_bind. eapply nest; [exact C|apply po_predicate_safe; assumption|].
    intros r s1 C1 _ R. apply safe_ret. split; [exact C1|exact R].
  - one_alloc p C Tp; [exact Logic.I|]. assert (P := Tp TPred eq_refl). one_alloc q C Tq; [exact Logic.I|]. assert (A := Tq TArg eq_refl).
    apply safe_bind. eapply nest; [exact C|apply lambda_safe; [exact (proj1 C)|exact P|exact A]|].
    intros r s3 C3 _ [R _]. apply safe_ret. split; [exact C3|exact R].
  - call_ C z s1 Rs; [exact (ok_pred_content _ _ O)|]. apply safe_bind. eapply nest; [exact C|apply content_safe; [exact (proj1 C)|exact Rs]|].
    intros r s2 C2 _ [R _]. apply safe_ret. split; [exact C2|exact R].
  - destruct k; try discriminate A0.
    + destruct (ok_cop_predicate _ _ _ _ _ _ O) as (P & Ol & Or). connector_ P. assert_ Ol. call_ C x s1 Rx; [pres|].
      assert_ Or. call_ C y s2 Ry; [pres|]. apply safe_ret. split; [exact C|split; assumption].
    + destruct (ok_cop_content _ _ _ _ _ _ O) as (P & Ol & Or). apply content_predicate in Ol. apply content_predicate in Or.
      connector_ P. assert_ Ol. call_ C x s1 Rx; [pres|]. assert_ Or. call_ C y s2 Ry; [pres|]. apply safe_ret. split; [exact C|split; assumption].
  - assert (Os := ok_lu _ _ _ _ O). destruct k; try discriminate A0.
    + destruct (has_text U lu "lu").
      * one_var nv C. one_open b C B Mb F. apply safe_bind. eapply ctx_push_hoa; [exact C|exact B|]. clear C. intros s2 C L2. move_to L2.
        call_ C x s3 Rx; [exact Os|]. apply safe_bind. eapply ctx_bind; [exact C| |exact Rx|].
        { intros y Y. injection Y as <-. auto. }
        clear C. intros y s4 C _ Ry. one_alloc r C T; [exact Ry|]. assert (R := T TPred eq_refl). apply safe_bind. eapply ctx_pop_hoa; [exact C|].
        intros s6 C6 L6. move_to L6. apply safe_ret. split; [exact C6|exact R].
      * call_ C x s3 Rx; [exact Os|]. one_alloc r C T; [exact Rx|]. apply safe_ret. split; [exact C|apply T; reflexivity].
    + call_ C z s1 Rs; [exact Os|]. apply safe_bind. eapply nest; [exact C|apply content_safe; [exact (proj1 C)|exact Rs]|].
      intros r s2 C2 _ [R _]. apply safe_ret. split; [exact C2|exact R].
Qed.

Lemma vars_safe {A} (m : Interp.M A) s (P : A -> heap -> Prop) : inv s ->
  safe m s (fun a s' => ctx s s' /\ P a (s_heap s')) -> safe (with_vars m) s (fun a s' => ctx s s' /\ P a (s_heap s')).
Proof.
  intros I H. eapply safe_weaken; [apply (safe_with_vars m s P I)|].
  - eapply safe_weaken; [exact H|]. intros a s' ((X & Y) & Z). auto.
  - intros a s' (X & Y & Z). split; [split; assumption|exact Z].
Qed.

Ltac call_arg C b a s Ra Rb :=
  apply safe_bind; eapply nest; [exact C|apply IH; [exact (proj1 C)|]|
  let L := fresh "L" in let C' := fresh "C" in
  intros [b a] s C' L [Ra Rb]; cbn [fst snd] in Ra, Rb; apply (yours_nest _ _ _ _ C) in Rb; clear C; rename C' into C; move_to L; clear L].
Ltac call_pair C x ts s Rx Rt :=
  apply safe_bind; eapply nest; [exact C|apply IH; [exact (proj1 C)|]|
  let L := fresh "L" in let C' := fresh "C" in
  intros [x ts] s C' L [Rx Rt]; cbn [fst snd] in Rx, Rt; clear C; rename C' into C; move_to L; clear L].
Ltac bind_ C Y z s Rz :=
  eapply ctx_bind; [exact C|exact Y|assumption|]; clear C;
  let L := fresh "L" in intros z s C L Rz; move_to L; clear L.

Lemma po_argument_safe p a0 a1 s : inv s -> s_hi s <> [] -> is (s_heap s) TPred p -> is (s_heap s) TArg a0 -> ok arguments a1 ->
  safe (po_argument U vf self p a0 a1) s (fun r s' => ctx s s' /\ is (s_heap s') TStmt r).
Proof.
  intros I Hi P A O. unfold po_argument. apply (vars_safe _ s (fun r h => is h TStmt r) I). assert (C := ctx_start _ I).
  eapply argument_safe; [exact C|exact Hi|exact O| |]; clear C.
  - intros b a s1 C L _ Y Ra. move_to L. one_alloc x C T; [split; [exact P|exact (in_two (is _ TArg) _ _ A Ra)]|]. assert (X := T TStmt eq_refl).
    bind_ C Y z s3 Rz. auto.
  - intros ru l r c E Ol Or. assert (C := ctx_start _ I). apply safe_bind, safe_lift. exists c. split; [exact E|].
    assert_ Ol. call_ C x s1 Rx; [pres|]. assert_ Or. call_ C y s2 Ry; [pres|]. finish_connection C.
Qed.

Lemma args_add h a x p : args_ok h a -> is h TArg x -> args_ok h (add_at a x p).
Proof. intros A X y q I. apply in_app_or in I. destruct I as [I|[I|[]]]; [exact (A _ _ I)|]. injection I as <- _. exact X. Qed.
Lemma yours_some s0 s b : mine s b -> length (s_heap s0) <= b -> yours s0 s (Some b).
Proof. intros A B x X. injection X as <-. auto. Qed.
Lemma terms_tl l : terms_ok l -> terms_ok (tl l).
Proof. intros []; [constructor|assumption]. Qed.

Lemma prenex_safe a st bi ts s : inv s -> s_hi s <> [] -> args_ok (s_heap s) a -> ok statements st -> terms_ok ts ->
  safe (prenex_statement U vf self a st bi ts) s (fun p s' => ctx s s' /\ is (s_heap s') TStmt (fst p) /\ terms_ok (snd p)).
Proof.
  intros I Hi A O T. unfold prenex_statement. apply (vars_safe _ s (fun p h => is h TStmt (fst p) /\ terms_ok (snd p)) I). assert (C := ctx_start _ I).
  destruct T as [|t rest Ot Tr].
  { call_ C x s1 Rx; [pres|]. { destruct (has_text U bi "pa"); [exact A|intros x p []]. } apply safe_ret. split; [exact C|]. split; [exact Rx|constructor]. }
  assert (A0 := proj1 Ot). unfold among in A0.
  assert (Prep : ok prepositions t -> safe
    (do '(sub, rest') <- self _ (KPrenex a st bi rest) ;
     do free <- has_free_vars vf sub ;
     if (free : bool) then
       do '(z, rest'') <- self _ (KPreposition t (ATail a st bi rest')) ;
       ret (z, t :: rest'')
     else
       do '(b, x) <- new_binding QThe false ;
       do _ <- restrict_content b x sub ;
       do _ <- add_the b ;
       do '(z, _) <- self _ (KPreposition t (AVar x)) ;
       ret (z, t :: rest')) s (fun p s' => ctx s s' /\ is (s_heap s') TStmt (fst p) /\ terms_ok (snd p))).
  { intros Op. call_pair C sub rest' s1 Rx Rt; [pres|]. apply safe_bind. eapply ctx_free; [exact C|exact Rx|]. intros [].
    - call_pair C z rest'' s2 Rz Rt2; [pres|]. apply safe_ret. split; [exact C|]. split; [exact Rz|constructor; assumption].
    - apply safe_bind. eapply new_binding_safe; [exact C|]. clear C. intros b x s2 C L B Mb F _ X. move_to L. clear L.
      apply safe_bind. eapply restrict_content_safe; [exact C|exact B|exact X|exact Rx|]. clear C. intros s3 C L. move_to L. clear L.
      apply safe_bind. eapply ctx_the; [exact C|exact Mb|exact F|]. clear C. intros s4 C L. move_to L. clear L.
      call_pair C z ts' s5 Rz Rt2; [pres|]. apply safe_ret. split; [exact C|]. split; [exact Rz|constructor; assumption]. }
  assert (Adv : ok adverbs t -> safe
    (do '(sub, rest') <- self _ (KPrenex a st bi rest) ;
     do '(b, x) <- new_binding QUnset false ;
     do _ <- restrict_content b x sub ;
     do free <- has_free_vars vf sub ;
     if (free : bool) then
       do _ <- set_quantifier b QAll ;
       do s <- self _ (KAdverb t x) ;
       do z <- bind_scope vf (Some b) s ;
       ret (z, t :: rest')
     else
       do _ <- set_quantifier b QThe ;
       do _ <- add_the b ;
       do z <- self _ (KAdverb t x) ;
       ret (z, t :: rest')) s (fun p s' => ctx s s' /\ is (s_heap s') TStmt (fst p) /\ terms_ok (snd p))).
  { intros Op. call_pair C sub rest' s1 Rx Rt; [pres|]. 
    apply safe_bind. eapply new_binding_safe; [exact C|]. clear C. intros b x s2 C L B Mb F _ X. move_to L. clear L.
    apply safe_bind. eapply restrict_content_safe; [exact C|exact B|exact X|exact Rx|]. clear C. intros s3 C L. move_to L. clear L.
    apply safe_bind. eapply ctx_free; [exact C|exact Rx|]. intros [].
    - apply safe_bind. eapply ctx_quantifier; [exact C|exact B|]. clear C. intros s4 C L. move_to L. clear L.
      call_ C y s5 Ry; [pres|]. apply safe_bind. bind_ C (yours_some _ _ _ Mb F) z s6 Rz. apply safe_ret. split; [exact C|]. split; [exact Rz|constructor; assumption].
    - apply safe_bind. eapply ctx_quantifier; [exact C|exact B|]. clear C. intros s4 C L. move_to L. clear L.
      apply safe_bind. eapply ctx_the; [exact C|exact Mb|exact F|]. clear C. intros s5 C L. move_to L. clear L.
      call_ C z s6 Rz; [pres|]. apply safe_ret. split; [exact C|]. split; [exact Rz|constructor; assumption]. }
  destruct t; try discriminate A0.
  - (* LinkedArgument *)
    clear Prep Adv. destruct (ok_linked _ _ _ Ot) as ((pos & Ep) & Oa & Ol). eapply argument_safe; [exact C|exact Hi|exact Oa| |]; clear C.
    + intros b x s1 C L _ Y Rx. move_to L. clear L. apply safe_bind, safe_lift. exists pos. split; [exact Ep|].
      call_pair C y rest' s2 Ry Rt; [pres; apply args_add; assumption|]. apply safe_bind. bind_ C Y z s3 Rz. apply safe_ret.
      split; [exact C|]. split; [exact Rz|constructor; assumption].
    + intros ru l r c E Oll Orr. assert (C := ctx_start _ I). assert_ Oll. assert_ Orr. apply safe_bind, safe_lift. exists c. split; [exact E|].
      call_pair C x t1 s1 Rx Rt1; [pres; constructor; auto|]. apply terms_tl in Rt1.
      call_pair C y t2 s2 Ry Rt2; [pres; constructor; auto|].
      one_alloc z C T; [split; assumption|]. apply safe_ret. split; [exact C|]. split; [apply T; reflexivity|exact Rt2].
  - (* PredicateArgument *)
    clear Prep Adv. destruct (ok_pred_arg _ _ _ _ _ Ot) as (Oq & Op & Or). call_arg C b x s1 Rx Y; [pres|]. apply safe_bind.
    eapply safe_weaken with (Q := fun _ s' => ctx s s' /\ args_ok (s_heap s') a /\ is (s_heap s') TArg x /\ yours s s' b).
    + destruct b as [b|]; [|apply safe_ret; auto]. destruct (negb (is_none focus) && negb (has_text U bi "pa")); [|apply safe_ret; auto].
      eapply ctx_focus; [exact C|apply open_is, (proj1 (proj1 (Y b eq_refl)))|]. clear C. intros s2 C L. move_to L. auto.
    + clear - IH O Tr Ot Hi. intros _ s2 (C & A & Rx & Y).
      call_pair C y rest' s3 Ry Rt; [pres; apply args_add; assumption|]. apply safe_bind. bind_ C Y z s4 Rz. apply safe_ret.
      split; [exact C|]. split; [exact Rz|constructor; assumption].
  - apply Adv. split; [reflexivity|exact (proj2 Ot)].
  - apply Prep. split; [reflexivity|exact (proj2 Ot)].
  - destruct k; try discriminate A0.
    + (* CoPTerms *)
      clear Prep Adv. destruct (ok_cop_termset _ _ _ _ _ _ Ot) as (P & Ol & Or). assert (Al := proj1 Ol). assert (Ar := proj1 Or). unfold among in Al, Ar.
      destruct t1; try discriminate Al. destruct t2; try discriminate Ar. apply ok_terms in Ol. apply ok_terms in Or. connector_ P.
      call_pair C x t1 s1 Rx Rt1; [pres; apply Forall_app; auto|].
      call_pair C y t2 s2 Ry Rt2; [pres; apply Forall_app; auto|].
      one_alloc z C T; [split; assumption|]. apply safe_ret. split; [exact C|]. split; [apply T; reflexivity|constructor; assumption].
    + (* CoPArgument *)
      clear Prep Adv. destruct (ok_cop_argument _ _ _ _ _ _ Ot) as (P & Ol & Or). destruct (has_text U ru "roi") eqn:E.
      * call_arg C b x s1 Rx Y; [pres|]. call_pair C y rest' s2 Ry Rt; [pres; apply args_add; assumption|]. apply safe_bind. bind_ C Y z s3 Rz. apply safe_ret.
        split; [exact C|]. split; [exact Rz|constructor; assumption].
      * apply argument_term in Ol. apply argument_term in Or. destruct (one_of_roi _ P E) as [c Ec]. assert_ Ol. assert_ Or.
        apply safe_bind, safe_lift. exists c. split; [exact Ec|].
        call_pair C x t3 s1 Rx Rt1; [pres; constructor; auto|]. apply terms_tl in Rt1.
        call_pair C y t4 s2 Ry Rt2; [pres; constructor; auto|].
        one_alloc z C T; [split; assumption|]. apply safe_ret. split; [exact C|]. split; [apply T; reflexivity|exact Rt2].
    + apply Adv. split; [reflexivity|exact (proj2 Ot)].
    + apply Prep. split; [reflexivity|exact (proj2 Ot)].
Qed.

Lemma arg0_ctx s s' a0 : ctx s s' -> arg0_ok (s_heap s) a0 -> arg0_ok (s_heap s') a0.
Proof.
  intros [_ S]. assert (L := later_step _ _ S). destruct a0; cbn [arg0_ok]; [apply (later_is _ _ _ _ _ L)|]. intros (A & B). split; [eapply later_args; eassumption|exact B].
Qed.
Lemma arg0_terms h a0 ts : arg0_ok h a0 -> terms_ok ts -> arg0_ok h (with_terms a0 ts).
Proof. destruct a0; cbn [arg0_ok with_terms]; tauto. Qed.

Lemma preposition_safe n a0 s : inv s -> s_hi s <> [] -> ok prepositions n -> arg0_ok (s_heap s) a0 ->
  safe (do_preposition U self n a0) s (fun p s' => ctx s s' /\ is (s_heap s') TStmt (fst p) /\ terms_ok (snd p)).
Proof.
  intros I Hi O A. unfold do_preposition. apply (vars_safe _ s (fun p h => is h TStmt (fst p) /\ terms_ok (snd p)) I). assert (C := ctx_start _ I).
  assert (A0 := proj1 O). unfold among in A0. destruct n; try discriminate A0.
  - destruct (ok_prep _ _ _ O) as [Op Oa]. eapply safe_weaken; [apply IH; [exact I|]|intros p s' H; exact H]. pres.
  - destruct k; try discriminate A0. destruct (ok_cop_preposition _ _ _ _ _ _ O) as (P & Ol & Or). connector_ P.
    assert_ Ol. call_pair C x t1 s1 Rx Rt1; [pres|]. assert_ Or.
    call_pair C y t2 s2 Ry Rt2; [cbn [pre]; split; [hi|split; [exact Or|apply arg0_terms; [eapply arg0_ctx; eassumption|exact Rt1]]]|].
    one_alloc z C T; [split; assumption|]. apply safe_ret. split; [exact C|]. split; [apply T; reflexivity|exact Rt2].
Qed.

Lemma in_pair {A} (P : A -> Prop) a b : P a -> P b -> forall x, In x [a; b] -> P x.
Proof. intros A1 B1 x [<-|[<-|[]]]; assumption. Qed.

Lemma pred_preposition_safe p a0 a1 s : inv s -> s_hi s <> [] -> ok predicates p -> arg0_ok (s_heap s) a0 -> ok arguments a1 ->
  safe (pred_preposition U vf self p a0 a1) s (fun p s' => ctx s s' /\ is (s_heap s') TStmt (fst p) /\ terms_ok (snd p)).
Proof.
  intros I Hi Op A O. unfold pred_preposition. apply (vars_safe _ s (fun p h => is h TStmt (fst p) /\ terms_ok (snd p)) I). assert (C := ctx_start _ I).
  eapply argument_safe; [exact C|exact Hi|exact O| |]; clear C.
  - intros b a s1 C L Hi1 Y Ra. clear L. apply (arg0_ctx _ _ _ C) in A. destruct a0 as [v|args0 st bi ts]; cbn [arg0_ok] in A.
    + apply safe_bind. eapply make_predication_safe; [exact C|hi|exact Op|exact (in_pair (is _ TArg) _ _ A Ra)|]. clear C. intros x s2 C L Rx. move_to L. clear L.
      apply safe_bind. bind_ C Y z s3 Rz. apply safe_ret. split; [exact C|]. split; [exact Rz|constructor].
    + destruct A as (A & Ost & Ts). call_pair C sub ts' s2 Rs Rt; [pres|].
      apply safe_bind. eapply new_binding_safe; [exact C|]. clear C. intros b1 x s3 C L B Mb F F' X.
      assert (Ne : forall y, b = Some y -> y <> b1).
      { intros y E. destruct (Y y E) as [My _]. apply (proj1) in My. apply open_lt in My. lia. }
      move_to L. clear L.
      apply safe_bind. eapply restrict_content_safe; [exact C|exact B|exact X|exact Rs|]. clear C. intros s4 C L. move_to L. clear L.
      apply safe_bind. eapply make_predication_safe; [exact C|hi|exact Op|exact (in_pair (is _ TArg) _ _ X Ra)|]. clear C. intros r s5 C L Rr. move_to L. clear L.
      apply safe_bind. eapply ctx_bind; [exact C|exact (yours_some _ _ _ Mb F)|exact Rr|]. clear C. intros r' s6 C L Rr'.
      assert (Y' : yours s s6 b).
      { intros y E. destruct (Y y E) as [My Fy]. split; [|exact Fy]. apply (l_mine _ _ _ L); [|exact My]. specialize (Ne y E). congruence. }
      move_to L. apply safe_bind. bind_ C Y' z s7 Rz. apply safe_ret. split; [exact C|]. split; [exact Rz|exact Rt].
  - intros ru l r c E Ol Or. assert (C := ctx_start _ I). apply safe_bind, safe_lift. exists c. split; [exact E|].
    assert_ Ol. call_pair C x t1 s1 Rx Rt1; [pres|]. assert_ Ol.
    call_pair C y t2 s2 Ry Rt2; [cbn [pre]; split; [hi|split; [exact Op|split; [apply arg0_terms; [eapply arg0_ctx; eassumption|exact Rt1]|exact Ol]]]|].
    one_alloc z C T; [split; assumption|]. apply safe_ret. split; [exact C|]. split; [apply T; reflexivity|exact Rt2].
Qed.

Lemma adverb_safe n a s : inv s -> s_hi s <> [] -> ok adverbs n -> is (s_heap s) TArg a ->
  safe (do_adverb U self n a) s (fun r s' => ctx s s' /\ is (s_heap s') TStmt r).
Proof.
  intros I Hi O A. unfold do_adverb. apply (vars_safe _ s (fun r h => is h TStmt r) I). assert (C := ctx_start _ I).
  assert (A0 := proj1 O). unfold among in A0. destruct n; try discriminate A0.
  - eapply make_predication_safe; [exact C|exact Hi|exact (ok_adverb _ _ O)|intros x [<-|[]]; exact A|]. auto.
  - destruct k; try discriminate A0. destruct (ok_cop_adverb _ _ _ _ _ _ O) as (P & Ol & Or). connector_ P.
    assert_ Ol. call_ C x s1 Rx; [pres|]. assert_ Or. call_ C y s2 Ry; [pres|]. finish_connection C.
Qed.

Lemma roi_safe l r s : inv s -> s_hi s <> [] -> ok arguments l -> ok arguments r ->
  safe (do_roi self l r) s (fun p s' => ctx s s' /\ is (s_heap s') TArg (snd p) /\ yours s s' (fst p)).
Proof.
  intros I Hi Ol Or. assert (C := ctx_start _ I). unfold do_roi.
  apply safe_bind. eapply new_binding_safe; [exact C|]. clear C. intros b x s2 C L B Mb F _ X. clear L. assert_ Ol. assert_ Or.
  call_ C y s3 Ry; [pres|]. apply safe_bind. eapply ctx_restriction; [exact C|exact B|exact Ry|]. clear C. intros s4 C L. move_to L. apply safe_ret.
  split; [exact C|]. split; [exact X|]. apply yours_some; assumption.
Qed.
Lemma roi_left_safe x l r s : inv s -> s_hi s <> [] -> is (s_heap s) TArg x -> ok arguments l -> ok arguments r ->
  safe (roi_left U vf self x l r) s (fun a s' => ctx s s' /\ is (s_heap s') TStmt a).
Proof.
  intros I Hi X Ol Or. unfold roi_left. assert (C := ctx_start _ I). eapply argument_safe; [exact C|exact Hi|exact Ol| |]; clear C.
  - intros b a s1 C L _ Y Ra. move_to L. clear L. call_ C z s2 Rz; [pres|]. bind_ C Y w s3 Rw. auto.
  - intros ru l' r' c E Ol' Or'. assert (C := ctx_start _ I). apply safe_bind, safe_lift. exists c. split; [exact E|].
    assert_ Ol'. call_ C y s1 Ry; [pres|]. assert_ Or'. call_ C z s2 Rz; [pres|]. finish_connection C.
Qed.
Lemma roi_right_safe x l r s : inv s -> s_hi s <> [] -> is (s_heap s) TArg x -> is (s_heap s) TArg l -> ok arguments r ->
  safe (roi_right U vf self x l r) s (fun a s' => ctx s s' /\ is (s_heap s') TStmt a).
Proof.
  intros I Hi X Al Or. unfold roi_right. assert (C := ctx_start _ I). eapply argument_safe; [exact C|exact Hi|exact Or| |]; clear C.
  - intros b a s1 C L _ Y Ra. move_to L. clear L. one_alloc pl C Tp; [exact (in_two (is _ TArg) _ _ Al Ra)|]. assert (P := Tp TArg eq_refl).
    one_alloc e C Te; [exact Logic.I|]. assert (E := Te TPred eq_refl).
    one_alloc z C Tz; [split; [exact E|exact (in_two (is _ TArg) _ _ X P)]|]. assert (Z := Tz TStmt eq_refl). bind_ C Y w s5 Rw. auto.
  - intros ru l' r' c E Ol' Or'. assert (C := ctx_start _ I). apply safe_bind, safe_lift. exists c. split; [exact E|].
    assert_ Ol'. call_ C y s1 Ry; [pres|]. assert_ Or'. call_ C z s2 Rz; [pres|]. finish_connection C.
Qed.

Definition arg_post (s : Interp.st) (p : option ref * ref) (s' : Interp.st) : Prop := ctx s s' /\ is (s_heap s') TArg (snd p) /\ yours s s' (fst p).
Lemma yours_none s s' : yours s s' None.
Proof. intros b E. discriminate. Qed.

Ltac relative_ C B x s R :=
  call_ C x s R; [cbn [pre]; split; [hi|split; [exact (some_def (is _ TBind) _ B)|assumption]]|].
Ltac restrict_ C B R s :=
  eapply ctx_restriction; [exact C|exact B|exact R|]; clear C; let L := fresh "L" in intros s C L; move_to L; clear L.

Lemma var_argument_safe v q rel s : inv s -> s_hi s <> [] -> quant_ok q -> opt_ok relatives rel ->
  safe (var_argument U self v q rel) s (arg_post s).
Proof.
  intros I Hi [qq Eq] O. assert (C := ctx_start _ I). unfold var_argument. destruct q as [w|].
  - apply safe_bind, safe_lift. exists qq. split; [exact Eq|]. one_open b C B Mb F.
    apply safe_bind. eapply ctx_push_var; [exact C|exact B|]. clear C. intros x s2 C L. move_to L. clear L.
    apply safe_bind. eapply ctx_set_binding; [exact C|exact Mb|]. clear C. intros s3 C L. move_to L. clear L.
    one_alloc a C T; [exact (some_def (is _ TBind) _ B)|]. assert (A := T TArg eq_refl). apply safe_bind.
    eapply safe_weaken with (Q := fun _ s' => ctx s s' /\ is (s_heap s') TArg a /\ mine s' b).
    + destruct rel as [n|]; [|apply safe_ret; auto]. cbn [opt_ok] in O. relative_ C B r u5 R. restrict_ C B R tt6. auto.
    + intros _ s' (C' & A' & M'). apply safe_ret. split; [exact C'|]. split; [exact A'|apply yours_some; assumption].
  - apply safe_bind. eapply ctx_lookup; [exact C|]. clear C. intros x o s1 C L D. clear L. one_alloc ax C T; [exact D|]. assert (A := T TArg eq_refl).
    destruct rel as [n|].
    + cbn [opt_ok] in O. apply safe_bind. eapply new_binding_safe; [exact C|]. clear C. intros b ay s2 C L B Mb F _ Y. move_to L. clear L.
      one_alloc am C Ta; [exact Logic.I|]. assert (P := Ta TPred eq_refl).
      one_alloc l C Tl; [split; [exact P|exact (in_two (is _ TArg) _ _ Y A)]|]. assert (Sl := Tl TStmt eq_refl).
      relative_ C B r u5 R. one_alloc z C Tz; [split; assumption|]. assert (Z := Tz TStmt eq_refl). apply safe_bind. restrict_ C B Z tt6. apply safe_ret.
      split; [exact C|]. split; [exact Y|apply yours_some; assumption].
    + apply safe_ret. split; [exact C|]. split; [exact A|apply yours_none].
Qed.

Lemma hoa_argument_safe q rel s : inv s -> s_hi s <> [] -> opt_ok relatives rel -> safe (hoa_argument self q rel) s (arg_post s).
Proof.
  intros I Hi O. assert (C := ctx_start _ I). unfold hoa_argument. apply safe_bind. unfold safe at 1, hoa_scope. assert (F := i_hoa _ _ I).
  destruct (s_hoa s) as [|d hs].
  - one_var x C. one_alloc a C T; [discriminate|]. apply safe_ret. split; [exact C|]. split; [apply T; reflexivity|apply yours_none].
  - inversion F as [|? ? D _]; subst. clear F. apply safe_bind. eapply ctx_get_binding; [exact C|exact D|]. intros bd.
    one_alloc ax C T; [exact (some_def (is _ TBind) _ D)|]. assert (A := T TArg eq_refl).
    assert (K : safe
         (do '(b, ay) <- new_binding QAll false ;
          do among <- alloc (CPred "≺") ;
          do l <- alloc (CPredication among [Some ay; Some ax]) ;
          do _ <- set_restriction b l ;
          do _ <- match rel with
                  | Some n =>
                      do r <- self _ (KRelative (Some b) n) ;
                      do s <- alloc (CConnection KAnd l r) ;
                      set_restriction b s
                  | None => ret tt
                  end ;
          ret (Some b, ay)) s0 (arg_post s)).
    { apply safe_bind. eapply new_binding_safe; [exact C|]. clear C. intros b ay s2 C L B Mb F _ Y. move_to L. clear L.
      one_alloc am C Ta; [exact Logic.I|]. assert (P := Ta TPred eq_refl).
      one_alloc l C Tl; [split; [exact P|exact (in_two (is _ TArg) _ _ Y A)]|]. assert (Sl := Tl TStmt eq_refl).
      apply safe_bind. restrict_ C B Sl tt5. apply safe_bind.
      eapply safe_weaken with (Q := fun _ s' => ctx s s' /\ is (s_heap s') TArg ay /\ mine s' b).
      - destruct rel as [n|]; [|apply safe_ret; auto]. cbn [opt_ok] in O. relative_ C B r u6 R. one_alloc z C Tz; [split; assumption|].
        assert (Z := Tz TStmt eq_refl). restrict_ C B Z tt7. auto.
      - intros _ s' (C' & A' & M'). apply safe_ret. split; [exact C'|]. split; [exact A'|apply yours_some; assumption]. }
    destruct q as [w|]; [exact K|]. destruct rel as [n|]; [exact K|]. apply safe_ret. split; [exact C|]. split; [exact A|apply yours_none].
Qed.

Lemma predicate_argument_safe f q p rel s : inv s -> s_hi s <> [] -> quant_ok q -> ok predicates p -> opt_ok relatives rel ->
  safe (predicate_argument U ol vf self f q p rel) s (arg_post s).
Proof.
  intros I Hi Oq Op Or. assert (C := ctx_start _ I). unfold predicate_argument. apply safe_bind. eapply ctx_lifted; [exact C|]. intros [b|] Lb.
  { specialize (Lb b eq_refl). apply safe_bind. eapply ctx_get_binding; [exact C|exact Lb|]. intros bd.
    one_alloc a C T; [exact (some_def (is _ TBind) _ Lb)|]. apply safe_ret. split; [exact C|]. split; [apply T; reflexivity|apply yours_none]. }
  clear Lb. destruct (is_variable U ol p) as [v|]; [apply var_argument_safe; assumption|].
  destruct (is_hoa U p); [apply hoa_argument_safe; assumption|].
  destruct Oq as [qq Eq]. apply safe_bind, safe_lift. exists qq. split; [exact Eq|].
  apply safe_bind. eapply new_binding_safe; [exact C|]. clear C. intros b a s1 C L B Mb F _ A. clear L.
  apply safe_bind. eapply make_predication_safe; [exact C|hi|exact Op|intros x [<-|[]]; exact A|]. clear C. intros x s2 C L X. move_to L. clear L.
  apply safe_bind. restrict_ C B X tt3. apply safe_bind.
  eapply safe_weaken with (Q := fun _ s' => ctx s s' /\ is (s_heap s') TArg a /\ is (s_heap s') TBind b /\ mine s' b).
  { destruct rel as [n|]; [|apply safe_ret; auto]. cbn [opt_ok] in Or. relative_ C B r u6 R. one_alloc z C Tz; [split; assumption|].
    assert (Z := Tz TStmt eq_refl). restrict_ C B Z tt7. auto. }
  clear - Hi F. intros _ s4 (C & A & B & Mb).
  assert (K : arg_post s (Some b, a) s4) by (split; [exact C|]; split; [exact A|apply yours_some; assumption]).
  destruct qq; try (apply safe_ret; exact K).
  - apply safe_bind. eapply ctx_free; [exact C|exact B|]. intros [].
    + apply safe_bind. eapply ctx_quantifier; [exact C|exact B|]. clear C K. intros s5 C L. move_to L. apply safe_ret.
      split; [exact C|]. split; [exact A|apply yours_some; assumption].
    + clear K. apply safe_bind. eapply ctx_set_lifted; [exact C|exact B|]. clear C. intros s5 C L. move_to L. clear L.
      apply safe_bind. eapply ctx_the; [exact C|exact Mb|exact F|]. clear C. intros s6 C L. move_to L. apply safe_ret.
      split; [exact C|]. split; [exact A|apply yours_none].
  - clear K. apply safe_bind. eapply ctx_set_lifted; [exact C|exact B|]. clear C. intros s5 C L. move_to L. clear L.
    apply safe_bind. unfold safe at 1, hi_scope. assert (N := ctx_hi _ _ C Hi). destruct (s_hi s5) as [|t r] eqn:E; [contradiction|].
    apply safe_bind. eapply ctx_hi_add; [exact C|exact Mb|exact F|exact E|]. clear C. intros s6 C L. move_to L. apply safe_ret.
    split; [exact C|]. split; [exact A|apply yours_none].
Qed.

Lemma relative_clause_safe b n s : inv s -> s_hi s <> [] -> (forall x, b = Some x -> is (s_heap s) TBind x) -> ok relatives n ->
  safe (relative_clause U self b n) s (fun r s' => ctx s s' /\ is (s_heap s') TStmt r).
Proof.
  intros I Hi B O. unfold relative_clause. apply (vars_safe _ s (fun r h => is h TStmt r) I). assert (C := ctx_start _ I).
  apply safe_bind. eapply safe_weaken with (Q := fun _ s' => ctx s s').
  { destruct b as [b|]; [|exact C]. eapply ctx_push_hoa; [exact C|apply B; reflexivity|]. auto. }
  clear C. intros _ s1 C. apply safe_bind. eapply safe_weaken with (Q := fun r s' => ctx s s' /\ is (s_heap s') TStmt r).
  - assert (A0 := proj1 O). unfold among in A0. destruct n; try discriminate A0.
    + eapply nest; [exact C|apply IH; [exact (proj1 C)|exact (ok_pred_rel _ _ O)]|]. auto.
    + destruct k; try discriminate A0. destruct (ok_cop_relative _ _ _ _ _ _ O) as (P & Ol & Or). connector_ P.
      assert_ Ol. call_ C x s2 Rx; [cbn [pre]; split; [hi|split; [discriminate|exact Ol]]|].
      assert_ Or. call_ C y s3 Ry; [cbn [pre]; split; [hi|split; [discriminate|exact Or]]|]. finish_connection C.
    + destruct k; try discriminate A0. eapply nest; [exact C|apply IH; [exact (proj1 C)|exact (ok_lu _ _ _ _ O)]|]. auto.
  - clear C. intros r s2 [C R]. apply safe_bind. destruct b as [b|].
    + eapply ctx_pop_hoa; [exact C|]. intros s3 C3 L3. move_to L3. apply safe_ret. auto.
    + apply safe_ret. apply safe_ret. auto.
Qed.

Lemma body_safe A (c : call A) s : inv s -> pre c s -> safe (body U ol vf self c) s (fun a s' => ctx s s' /\ post c s a s').
Proof.
  intros I P. destruct c; cbn [body pre post] in *.
  - apply sentence_safe; assumption.
  - apply subordinate_safe; [exact I|]. intros s1 I1 _ H1. apply (IH _ (KStatement [] n)); [exact I1|]. cbn [pre]. split; [exact H1|]. split; [intros x p []|exact P].
  - apply statement_safe; tauto.
  - apply predicate_safe; tauto.
  - apply po_argument_safe; tauto.
  - apply prenex_safe; tauto.
  - apply preposition_safe; tauto.
  - apply pred_preposition_safe; tauto.
  - apply adverb_safe; tauto.
  - apply roi_safe; tauto.
  - apply roi_left_safe; tauto.
  - apply roi_right_safe; tauto.
  - apply predicate_argument_safe; tauto.
  - apply relative_clause_safe; tauto.
Qed.

End Safe.

Lemma run_safe U ol vf fuel : forall A (c : call A) s, inv s -> pre U c s ->
  safe (run U ol vf fuel A c) s (fun a s' => ctx s s' /\ post U c s a s').
Proof. induction fuel as [|f IH]; intros A c s I P; [exact Logic.I|]. cbn [run]. apply body_safe; assumption. Qed.
