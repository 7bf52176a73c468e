(** What orderly discourses say: variables are in scope, simplification says the same. *)

From Coq Require Import String NArith List Bool Arith Lia.
From Verif Require Simplify.
From Verif Require Import Base Utf8 PegSyntax Tone Ast AstSorts AstCases Parser ParserSpec Logic LogicWords LogicSpec LogicString LogicApi LogicCases ScopeSpec Interp Meaning Clauses ClauseHeap
  ClauseOne ClauseEnd ClauseCases ClauseTotal ClauseApps Truth TruthFacts TruthProof TruthEnd TruthCases ClauseNotation ClauseShown ClauseWritten Orderly OrderlyFacts OrderlyProof.
From Verif Require MeaningFacts ScopeTotal Shown.
Import ListNotations.
Open Scope string_scope.
Open Scope list_scope.
Open Scope nat_scope.

Local Notation grows := OrderlyFacts.grows.
Local Notation said := OrderlyFacts.said.
Local Notation fine := OrderlyFacts.fine.

(** ** Formulas *)

Lemma stray_loose :
  (forall F x, In x (stray F) -> In x (loose F)) /\ (forall p x, In x (stray_p p) -> In x (loose_p p)) /\
  (forall a x, In x (stray_t a) -> In x (loose_t a)) /\ (forall l x, In x (stray_r l) -> In x (loose_r l)).
Proof.
  apply forms_ind; cbn [stray loose stray_p loose_p stray_t loose_t stray_r loose_r].
  - intros p Hp l Hl x I. rewrite !in_app_iff in *. destruct I; auto.
  - intros c F HF G HG x I. rewrite !in_app_iff in *. destruct I; auto.
  - intros q x f G HG y I. apply in_without in I as [I N]. apply in_without. auto.
  - intros q x f R HR G HG y I. apply in_without in I as [I N]. apply in_without. rewrite !in_app_iff in *. destruct I; auto.
  - intros p x. induction p as [s|v|p IHp q IHq]; cbn; [tauto|destruct v; cbn; tauto|]. rewrite !in_app_iff. tauto.
  - intros F HF. exact HF.
  - intros v x. destruct v; cbn; tauto.
  - auto.
  - intros F HF. exact HF.
  - intros l Hl. exact Hl.
  - auto.
  - intros l Hl. exact Hl.
  - intros a Ha l Hl x I. rewrite !in_app_iff in *. destruct I; auto.
Qed.
Lemma occurring_split :
  (forall F x, In x (occurring F) -> In x (stray F) \/ In x (binders F)) /\ (forall p x, In x (occurring_p p) -> In x (stray_p p) \/ In x (binders_p p)) /\
  (forall a x, In x (occurring_t a) -> In x (stray_t a) \/ In x (binders_t a)) /\ (forall l x, In x (occurring_r l) -> In x (stray_r l) \/ In x (binders_r l)).
Proof.
  apply forms_ind; cbn [stray occurring binders stray_p occurring_p binders_p stray_t occurring_t binders_t stray_r occurring_r binders_r].
  - intros p Hp l Hl x I. rewrite !in_app_iff in *. destruct I as [I|I]; [apply Hp in I|apply Hl in I]; tauto.
  - intros c F HF G HG x I. rewrite !in_app_iff in *. destruct I as [I|I]; [apply HF in I|apply HG in I]; tauto.
  - intros q x f G HG y I. destruct (Nat.eq_dec y x) as [-> |N]; [right; now left|]. apply HG in I as [I|I]; [left; apply in_without; auto|right; now right].
  - intros q x f R HR G HG y I. destruct (Nat.eq_dec y x) as [-> |N]; [right; now left|]. apply in_app_or in I as [I|I]; [apply HR in I|apply HG in I];
      (destruct I as [I|I]; [left; apply in_without; rewrite in_app_iff; auto|right; right; apply in_or_app; auto]).
  - intros p x. induction p as [s|v|p IHp q IHq]; cbn; [tauto|destruct v; cbn; tauto|]. rewrite !in_app_iff. tauto.
  - intros F HF. exact HF.
  - auto.
  - auto.
  - intros F HF. exact HF.
  - intros l Hl. exact Hl.
  - auto.
  - intros l Hl. exact Hl.
  - intros a Ha l Hl x I. rewrite !in_app_iff in *. destruct I as [I|I]; [apply Ha in I|apply Hl in I]; tauto.
Qed.

(** Filling in the variables of restrictions. *)
Lemma fill_says b p l : fill b (Says p l) = Says (fill_p p) (fill_r l) \/ (exists x, b = Some x /\ l = Nil /\ fill b (Says p l) = Says (fill_p p) (Item (Var (Bound x false)) Nil)).
Proof.
  destruct b as [x|], l as [|l|a l]; cbn [fill]; auto. destruct (existsb (Nat.eqb x) (numbers_p p)); [left; reflexivity|right; eauto].
Qed.
Lemma fill_stray :
  (forall F b x, In x (stray (fill b F)) -> In x (stray F) \/ b = Some x) /\ (forall p x, In x (stray_p (fill_p p)) -> In x (stray_p p)) /\
  (forall a x, In x (stray_t (fill_t a)) -> In x (stray_t a)) /\ (forall l x, In x (stray_r (fill_r l)) -> In x (stray_r l)).
Proof.
  apply forms_ind.
  - intros p Hp l Hl b x I. destruct (fill_says b p l) as [E|(y & -> & -> & E)]; rewrite E in I; cbn [stray stray_r stray_t of_var app] in *.
    + left. apply in_app_or in I as [I|I]; apply in_or_app; auto.
    + apply in_app_or in I as [I|[<-|[]]]; [left; apply in_or_app; auto|now right].
  - intros c F HF G HG b x I. cbn [fill stray] in *. apply in_app_or in I as [I|I]; [apply HF in I|apply HG in I]; (destruct I as [I|I]; [left; apply in_or_app; auto|auto]).
  - intros q y f G HG b x I. cbn [fill stray] in *. apply in_without in I as [I N]. apply HG in I as [I|I]; [left; apply in_without; auto|discriminate].
  - intros q y f R HR G HG b x I. cbn [fill stray] in *. apply in_without in I as [I N]. left. apply in_without. split; [|exact N]. apply in_or_app.
    apply in_app_or in I as [I|I]; [apply HR in I|apply HG in I]; (destruct I as [I|I]; [auto|congruence]).
  - auto.
  - intros F HF x I. cbn [fill_p stray_p] in *. apply HF in I as [I|I]; [exact I|discriminate].
  - auto.
  - auto.
  - intros F HF x I. cbn [fill_t stray_t] in *. apply HF in I as [I|I]; [exact I|discriminate].
  - intros l Hl x I. cbn [fill_t stray_t] in *. auto.
  - auto.
  - intros l Hl x I. cbn [fill_r stray_r] in *. auto.
  - intros a Ha l Hl x I. cbn [fill_r stray_r] in *. apply in_app_or in I as [I|I]; apply in_or_app; auto.
Qed.
Lemma fill_loose :
  (forall F b x, In x (loose (fill b F)) -> In x (loose F) \/ b = Some x) /\ (forall p x, In x (loose_p (fill_p p)) -> In x (loose_p p)) /\
  (forall a x, In x (loose_t (fill_t a)) -> In x (loose_t a)) /\ (forall l x, In x (loose_r (fill_r l)) -> In x (loose_r l)).
Proof.
  apply forms_ind.
  - intros p Hp l Hl b x I. destruct (fill_says b p l) as [E|(y & -> & -> & E)]; rewrite E in I; cbn [loose loose_r loose_t var_number app] in *.
    + left. apply in_app_or in I as [I|I]; apply in_or_app; auto.
    + destruct I as [<-|I]; [now right|left; auto].
  - intros c F HF G HG b x I. cbn [fill loose] in *. apply in_app_or in I as [I|I]; [apply HF in I|apply HG in I]; (destruct I as [I|I]; [left; apply in_or_app; auto|auto]).
  - intros q y f G HG b x I. cbn [fill loose] in *. apply in_without in I as [I N]. apply HG in I as [I|I]; [left; apply in_without; auto|discriminate].
  - intros q y f R HR G HG b x I. cbn [fill loose] in *. apply in_without in I as [I N]. left. apply in_without. split; [|exact N]. apply in_or_app.
    apply in_app_or in I as [I|I]; [apply HR in I|apply HG in I]; (destruct I as [I|I]; [auto|congruence]).
  - auto.
  - intros F HF x I. cbn [fill_p loose_p] in *. apply HF in I as [I|I]; [exact I|discriminate].
  - auto.
  - auto.
  - intros F HF x I. cbn [fill_t loose_t] in *. apply HF in I as [I|I]; [exact I|discriminate].
  - intros l Hl x I. cbn [fill_t loose_t] in *. auto.
  - auto.
  - intros l Hl x I. cbn [fill_r loose_r] in *. auto.
  - intros a Ha l Hl x I. cbn [fill_r loose_r] in *. apply in_app_or in I as [I|I]; apply in_or_app; auto.
Qed.
Lemma fill_frees :
  (forall F b, frees (fill b F) = frees F) /\ (forall p, frees_p (fill_p p) = frees_p p) /\ (forall a, frees_t (fill_t a) = frees_t a) /\ (forall l, frees_r (fill_r l) = frees_r l).
Proof.
  apply forms_ind.
  - intros p Hp l Hl b. destruct (fill_says b p l) as [E|(y & -> & -> & E)]; rewrite E; cbn [frees frees_r frees_t free_var app]; now rewrite Hp, ?Hl.
  - intros c F HF G HG b. cbn [fill frees]. now rewrite HF, HG.
  - intros q x f G HG b. cbn [fill frees]. now rewrite HG.
  - intros q x f R HR G HG b. cbn [fill frees]. now rewrite HR, HG.
  - reflexivity.
  - intros F HF. apply HF.
  - reflexivity.
  - reflexivity.
  - intros F HF. apply HF.
  - intros l Hl. exact Hl.
  - reflexivity.
  - intros l Hl. exact Hl.
  - intros a Ha l Hl. cbn [fill_r frees_r]. now rewrite Ha, Hl.
Qed.
Lemma fill_preds :
  (forall F b, as_predicates (fill b F) = as_predicates F) /\ (forall p, as_predicates_p (fill_p p) = as_predicates_p p) /\
  (forall a, as_predicates_t (fill_t a) = as_predicates_t a) /\ (forall l, as_predicates_r (fill_r l) = as_predicates_r l).
Proof.
  apply forms_ind.
  - intros p Hp l Hl b. assert (M : forall m, as_predicates_r m = as_predicates_r l -> as_predicates (Says (fill_p p) m) = as_predicates (Says p l)).
    { intros m E. destruct p as [s|A]; cbn [fill_p as_predicates]; rewrite E; [reflexivity|]. cbn [app]. f_equal. exact Hp. }
    destruct (fill_says b p l) as [E|(y & -> & -> & E)]; rewrite E; apply M; [exact Hl|reflexivity].
  - intros c F HF G HG b. cbn [fill as_predicates]. now rewrite HF, HG.
  - intros q x f G HG b. cbn [fill as_predicates]. now rewrite HG.
  - intros q x f R HR G HG b. cbn [fill as_predicates]. now rewrite HR, HG.
  - reflexivity.
  - intros F HF. apply HF.
  - reflexivity.
  - reflexivity.
  - intros F HF. apply HF.
  - intros l Hl. exact Hl.
  - reflexivity.
  - intros l Hl. exact Hl.
  - intros a Ha l Hl. cbn [fill_r as_predicates_r]. now rewrite Ha, Hl.
Qed.
Lemma fill_whole l : whole (fill_r l) = whole l.
Proof. induction l; cbn; auto. Qed.
Lemma fill_calm : forall F b, calm (fill b F) = calm F.
Proof.
  induction F as [p l|c F HF G HG|q x f G HG|q x f R HR G HG]; intros b; [|reflexivity|reflexivity|exact (HG None)].
  destruct (fill_says b p l) as [E|(y & -> & -> & E)]; rewrite E; destruct p as [[]|]; reflexivity.
Qed.
Lemma apart_sub zs l m : (forall x, In x m -> In x l) -> apart zs l = true -> apart zs m = true.
Proof. intros H A. rewrite apart_spec in *. intros x I J. exact (A x I (H x J)). Qed.
Lemma fill_own : forall F b z zs, own z zs F = true -> own z zs (fill b F) = true.
Proof.
  fix IH 1. intros F b z zs. destruct F as [p l|c F G|q x f G|q x f R G]; [|reflexivity|reflexivity|].
  - destruct (fill_says b p l) as [E|(y & -> & -> & E)]; rewrite E; clear E.
    + destruct p as [s|A]; cbn [fill_p].
      * destruct s as [s|v|s1 s2]; try reflexivity. destruct l as [|l|a l]; try reflexivity. destruct l as [|l|a' l]; try reflexivity. destruct l as [|l|a'' l]; try reflexivity.
        cbn [own fill_r]. intros H. apply orb_true_iff in H as [H|H]; apply orb_true_iff; [now left|right]. destruct a as [v| | |]; try discriminate. destruct v as [y f|y]; [|discriminate]. cbn [fill_t].
        apply andb_prop in H as [H1 H2]. rewrite H1. eapply apart_sub; [|exact H2]. apply fill_loose.
      * destruct A as [p0 l0|c F G|q y f G|q y f R G]; [intros _; destruct (fill_says None p0 l0) as [E|(y & E & _)]; [rewrite E; reflexivity|discriminate]|reflexivity| |reflexivity].
        cbn [fill]. destruct q; try reflexivity. cbn [own]. destruct l as [|l|a l]; try discriminate. destruct a as [v| | |]; try discriminate. destruct v as [y0 f0|y0]; [|discriminate]. destruct l as [|l|a l]; try discriminate.
        cbn [fill_r fill_t]. intros H. apply andb_prop in H as [H1 H2]. rewrite H1. cbn [andb]. apply IH, H2.
    + destruct p as [s|A]; cbn [fill_p]; [destruct s; reflexivity|]. destruct A as [p0 l0|c F G|q y0 f G|q y0 f R G]; cbn [own].
      * intros _. destruct (fill_says None p0 l0) as [E|(y0 & E & _)]; [rewrite E; reflexivity|discriminate].
      * reflexivity.
      * cbn [fill]. destruct q; try reflexivity. discriminate.
      * reflexivity.
  - cbn [fill own]. rewrite fill_calm. intros H. apply orb_true_iff in H as [H|H]; apply orb_true_iff; [now left|right]. apply andb_prop in H as [H1 H2]. apply andb_true_intro. split; [|apply IH, H2].
    eapply apart_sub; [|exact H1]. intros y [<-|I]; [now left|]. rewrite (proj1 fill_binders) in I. apply in_app_or in I as [I|I]; [|right; apply in_or_app; now right].
    apply (proj1 fill_loose) in I as [I|I]; [right; apply in_or_app; now left|]. injection I as ->. now left.
Qed.
Lemma fill_tame :
  (forall F, (forall b, tame F = true -> tame (fill b F) = true) /\ (tame_p (Abstract F) = true -> tame_p (Abstract (fill None F)) = true)) /\
  (forall p, tame_p p = true -> tame_p (fill_p p) = true) /\
  (forall a, tame_t a = true -> tame_t (fill_t a) = true) /\ (forall l, tame_r l = true -> tame_r (fill_r l) = true).
Proof.
  apply forms_ind.
  - intros p Hp l Hl. assert (Q : forall b, tame (Says p l) = true -> tame (fill b (Says p l)) = true).
    { intros b T. cbn [tame] in T. apply andb_prop in T as [T1 T2]. apply andb_prop in T1 as [Tp Tl]. specialize (Hp Tp). specialize (Hl Tl).
      assert (Z : forall m, tame_r m = true -> (whole l = true -> whole m = true) -> tame (Says (fill_p p) m) = true).
      { intros m Tm W. cbn [tame]. rewrite Hp, Tm. cbn [andb]. destruct p as [s|A]; [reflexivity|]. cbn [fill_p]. destruct A as [p0 l0|c F G|q y f G|q y f R G]; [|reflexivity| |reflexivity].
        - destruct (fill_says None p0 l0) as [E|(y & E & _)]; [rewrite E; reflexivity|discriminate].
        - cbn [fill]. destruct q; try reflexivity. apply andb_prop in T2 as [T3 T4]. rewrite (proj1 fill_preds), T3, (W T4). reflexivity. }
      destruct (fill_says b p l) as [E|(y & -> & -> & E)]; rewrite E; apply Z; auto. now rewrite fill_whole. }
    split; [exact Q|]. cbn [tame_p]. intros T. specialize (Q None T). cbn [fill] in *. destruct l; exact Q.
  - intros c F [HF _] G [HG _]. assert (Q : forall b, tame (Joined c F G) = true -> tame (fill b (Joined c F G)) = true).
    { intros b T. cbn [tame fill] in *. apply andb_prop in T as [T1 T2]. now rewrite HF, HG. }
    split; [exact Q|]. intros T. exact (Q None T).
  - intros q x f G [HG _]. split.
    + intros b T. cbn [tame fill] in *. apply andb_prop in T as [T1 T2]. now rewrite T1, HG.
    + cbn [tame_p fill tame]. destruct q; intros T; now apply HG.
  - intros q x f R [HR _] G [HG _]. assert (Q : forall b, tame (Limits q x f R G) = true -> tame (fill b (Limits q x f R G)) = true).
    { intros b T. cbn [tame fill] in *. apply andb_prop in T as [T T3]. apply andb_prop in T as [T1 T2]. rewrite HR, HG by assumption. cbn [andb]. destruct q; auto; now apply fill_own. }
    split; [exact Q|]. intros T. exact (Q None T).
  - auto.
  - intros F [HF1 HF2] T. exact (HF2 T).
  - auto.
  - auto.
  - intros F [HF1 HF2] T. exact (HF1 None T).
  - intros l Hl T. exact (Hl T).
  - auto.
  - intros l Hl T. exact (Hl T).
  - intros a Ha l Hl T. cbn [tame_r fill_r] in *. apply andb_prop in T as [T1 T2]. now rewrite Ha, Hl.
Qed.

(** ** Discourses *)

Lemma around_stray G : forall l seen, lined seen l -> incl (stray G) (map fst l ++ seen) -> incl (stray (around l G)) seen.
Proof.
  induction l as [|[x R] l IH]; intros seen L I; [exact I|]. cbn in L. destruct L as [L1 L2]. unfold around. cbn [fold_right fst snd]. fold (around l G). cbn [stray].
  intros y J. apply in_without in J as [J N]. apply in_app_or in J as [J|J].
  - destruct (L1 y J); [congruence|assumption].
  - apply (IH (x :: seen) L2) in J; [destruct J; [congruence|assumption]|]. intros z K. specialize (I z K). cbn in I. destruct I as [<-|I]; [apply in_or_app; right; now left|].
    apply in_app_or in I as [I|I]; apply in_or_app; [now left|right; now right].
Qed.
Lemma around_tame G l : tame G = true -> (forall x R, In (x, R) l -> tame R = true /\ own x [] R = true) -> tame (around l G) = true.
Proof.
  intros T. induction l as [|[x R] l IH]; intros H; [exact T|]. unfold around. cbn [fold_right fst snd]. fold (around l G). cbn [tame].
  destruct (H x R (or_introl eq_refl)) as [-> ->]. rewrite IH; [reflexivity|]. intros y S0 I. apply H. now right.
Qed.

Section Discourse.
Variable U : unicode.
Variable ol : list (N * N).

Lemma okay0 t : okay scene0 t.
Proof. constructor; [intros x []|intros x []|discriminate]. Qed.
Lemma shown0 : shown_hoa scene0.
Proof. intros x E. discriminate. Qed.
Lemma sentence_orderly links t n F t' : says_sentence U ol t n F t' -> orderly U ol links n = true -> fine t ->
  fine t' /\ grows t t' /\ said scene0 t [] [] F t'.
Proof.
  induction 1 as [t je st da F t' S0|t f m ru l r F G t1 t2 T Sl IHl Sr IHr]; intros O Fi.
  - cbn in O. destruct (proj1 (parts_orderly U ol links) _ _ _ _ _ _ S0 O (okay0 t) Fi (no_args _ _ _) (or_introl shown0)) as (A & B & C & _). auto.
  - cbn in O. apply andb_prop in O as [O1 O2]. destruct (IHl O1 Fi) as (Fi1 & G1 & S1). destruct (IHr O2 Fi1) as (Fi2 & G2 & S2).
    split; [exact Fi2|]. split; [eapply OrderlyFacts.grows_trans; eassumption|]. now apply (said_joined _ _ _ _ _ _ _ t1).
Qed.
Lemma items_orderly t o d o' t' : says_items U ol t o d o' t' -> (forall n, In n d -> sentence_item n -> well_ordered U ol n = true) -> fine t ->
  (forall F, o = Some F -> incl (stray F) (outs t) /\ tame F = true) -> fine t' /\ (forall F, o' = Some F -> incl (stray F) (outs t') /\ tame F = true).
Proof.
  induction 1 as [t o|t o n d o' t' Ns It IH|t o n d F t1 o' t2 Si Sa It IH]; intros W Fi P.
  - auto.
  - apply IH; auto. intros m I. apply W. now right.
  - assert (Wn := W n (or_introl eq_refl) Si). unfold well_ordered in Wn. apply orb_true_iff in Wn.
    assert (Q : fine t1 /\ grows t t1 /\ said scene0 t [] [] F t1) by (destruct Wn as [Wn|Wn]; eapply sentence_orderly; eassumption).
    destruct Q as (Fi1 & G1 & (St & _ & _ & T & _)). apply IH; [intros m I; apply W; now right|exact Fi1|].
    assert (St' : incl (stray F) (outs t1)) by (intros x I; specialize (St x I); cbn in St; rewrite app_nil_r in St; exact St).
    intros F0 E. injection E as <-. destruct o as [G|]; [|auto]. destruct (P G eq_refl) as [PG TG]. cbn [stray tame]. rewrite TG, T. split; [|reflexivity].
    apply incl_app; [|exact St']. intros x I. apply G1, PG, I.
Qed.
Theorem literally_orderly d F : literally U ol d F -> (forall n, In n d -> sentence_item n -> well_ordered U ol n = true) -> stray F = [] /\ tame F = true.
Proof.
  intros (G & t & It & ->) W. assert (F0 : fine (Told 0 [] [])) by (constructor; [exact I|intros x R []|intros x []|intros k x []]).
  destruct (items_orderly _ _ _ _ _ It W F0) as (Fi & H); [discriminate|]. destruct (H G eq_refl) as [St T]. fold (around (n_outer t) G). split.
  - enough (Z : forall x, In x (stray (fill None (around (n_outer t) G))) -> False) by (destruct (stray (fill None (around (n_outer t) G))) as [|x l]; [reflexivity|destruct (Z x); now left]).
    intros x J. apply (proj1 fill_stray) in J as [J|J]; [|discriminate]. apply (around_stray G (n_outer t) []) in J; [exact J|exact (o_lined _ Fi)|]. rewrite app_nil_r. exact St.
  - apply fill_tame. apply around_tame; [exact T|exact (o_each _ Fi)].
Qed.

Lemma orderly_covered links : forall n, orderly U ol links n = true -> covered U ol n = true.
Proof.
  assert (Wo : forall n, worded U ol n = true -> no_abstraction n = true) by (intros n W; apply (worded_facts U ol links n W)).
  fix IH 1. assert (All : forall l, forallb (orderly U ol links) l = true -> forallb (covered U ol) l = true).
  { fix go 1. intros [|n l]; [reflexivity|]. cbn. intros H. apply andb_prop in H as [H1 H2]. rewrite (IH n H1), (go l H2). reflexivity. }
  intros n. destruct n; try discriminate; cbn [orderly covered]; intros O.
  - exact (IH n O).
  - exact (All ts O).
  - apply andb_prop in O as [O1 O2]. now rewrite (IH n1 O1), (IH n2 O2).
  - apply andb_prop in O as [O1 O2]. apply andb_prop in O1 as [_ O1]. rewrite (IH n O1). destruct ts as [l|]; [exact (All l O2)|reflexivity].
  - apply andb_prop in O as [O1 O2]. now rewrite (Wo _ O1), (Wo _ O2).
  - reflexivity.
  - exact O.
  - exact (IH n O).
  - reflexivity.
  - apply andb_prop in O as [_ O]. exact (IH n O).
  - exact (All ts O).
  - apply andb_prop in O as [O1 O2]. apply andb_true_intro. split.
    + destruct (is_variable U ol n); [reflexivity|]. destruct (is_hoa U n); [reflexivity|]. apply andb_prop in O1 as [O1 _]. apply andb_prop in O1 as [O1 O3]. now rewrite O1, (IH n O3).
    + destruct rel as [r|]; [exact (IH r O2)|reflexivity].
  - exact (IH n O).
  - exact (IH n O).
  - apply andb_prop in O as [O1 O2]. now rewrite (IH n1 O1), (IH n2 O2).
  - exact (IH n O).
  - apply andb_prop in O as [O1 O2]. apply andb_prop in O1 as [_ O1]. now rewrite (IH n1 O1), (IH n2 O2).
  - apply andb_prop in O as [_ O]. exact (IH n O).
Qed.
Lemma well_ordered_covered n : well_ordered U ol n = true -> covered U ol n = true.
Proof. unfold well_ordered. intros H. apply orb_true_iff in H as [H|H]; eapply orderly_covered, H. Qed.
End Discourse.

(** ** What simplification leaves *)

Section Occurring.
Variable pv : list nat.
Variable Z : nat -> Prop.
Definition of_values (s : values) : Prop := forall y a, In (y, Some a) s -> forall x, In x (occurring_t a) -> Z x.
Lemma value_in s y a : value s y = Some (Some a) -> exists z, In (z, Some a) s.
Proof. unfold value. destruct (find _ s) as [[z o]|] eqn:E; [|discriminate]. cbn. intros [= ->]. apply find_some in E as [E _]. eauto. Qed.
Lemma occurring_app l m x : In x (occurring_r (row_app l m)) -> In x (occurring_r l) \/ In x (occurring_r m).
Proof. induction l as [|l IH|a l IH]; cbn; auto. rewrite !in_app_iff. tauto. Qed.
Lemma fixes_occurring q R y c : fixes pv q R = Some (y, c) -> forall x, In x (occurring_t c) -> In x (occurring R).
Proof.
  intros H x I. destruct q; try discriminate; cbn [fixes] in H.
  all: destruct R as [p l| | |]; try discriminate; destruct p as [s|]; try discriminate; destruct s as [s| |]; try discriminate; destruct l as [| |a l]; try discriminate;
    destruct l as [| |b l]; try discriminate; destruct l; try discriminate; destruct (String.eqb s "="); try discriminate.
  all: cbn [occurring occurring_p occurring_r of_property app]; rewrite app_nil_r; apply in_or_app.
  all: destruct a as [v| | |]; [destruct (existsb _ pv); try discriminate; destruct (constant b); try discriminate; injection H as <- <-; auto|..].
  all: destruct b as [v| | |]; try discriminate; destruct (existsb _ pv); try discriminate; cbn [constant] in H; injection H as <- <-; auto.
Qed.
Lemma simple_occurring :
  (forall F, (forall s F' s', simple pv s F = (F', s') -> of_values s -> (forall x, In x (occurring F) -> Z x) -> of_values s' /\ (forall x, In x (occurring F') -> Z x)) /\
     (forall k l s F' s', apply (simple pv) k l s F = (F', s') -> of_values s -> (forall x, In x (occurring_r l) -> Z x) -> (forall x, In x (occurring F) -> Z x) -> of_values s' /\ (forall x, In x (occurring F') -> Z x))) /\
  (forall p, match p with Simple _ => True | Abstract F =>
     (forall s F' s', simple pv s F = (F', s') -> of_values s -> (forall x, In x (occurring F) -> Z x) -> of_values s' /\ (forall x, In x (occurring F') -> Z x)) /\
     (forall k l s F' s', apply (simple pv) k l s F = (F', s') -> of_values s -> (forall x, In x (occurring_r l) -> Z x) -> (forall x, In x (occurring F) -> Z x) -> of_values s' /\ (forall x, In x (occurring F') -> Z x)) end) /\
  (forall a s o s', simple_t pv s a = (o, s') -> of_values s -> (forall x, In x (occurring_t a) -> Z x) -> of_values s' /\ (forall a' x, o = Some a' -> In x (occurring_t a') -> Z x)) /\
  (forall l, (forall s l' s', simple_r pv s l = (l', s') -> of_values s -> (forall x, In x (occurring_r l) -> Z x) -> of_values s' /\ (forall x, In x (occurring_r l') -> Z x)) /\
     (forall s l' s', simple_m pv s l = (l', s') -> of_values s -> (forall x, In x (occurring_r l) -> Z x) -> of_values s' /\ (forall x, In x (occurring_r l') -> Z x))).
Proof.
  apply forms_ind.
  - intros p Hp l [Hl _]. assert (Q : forall s F' s', simple pv s (Says p l) = (F', s') -> of_values s -> (forall x, In x (occurring (Says p l)) -> Z x) -> of_values s' /\ (forall x, In x (occurring F') -> Z x)).
    { intros s F' s' E V I. cbn [occurring] in I. destruct p as [p|A].
      - rewrite simple_says_simple in E. destruct (simple_r pv s l) as [l' V1] eqn:El. injection E as <- <-. destruct (Hl _ _ _ El V) as [V' I']; [intros x J; apply I, in_or_app; auto|].
        split; [exact V'|]. cbn [occurring]. intros x J. apply in_app_or in J as [J|J]; [apply I, in_or_app; auto|auto].
      - rewrite simple_says_abstract in E. destruct (simple_r pv s l) as [l' V1] eqn:El. destruct (Hl _ _ _ El V) as [V' I']; [intros x J; apply I, in_or_app; auto|].
        destruct Hp as [H1 H2]. destruct ((params A =? 0) || negb (given_args l' =? params A)).
        + destruct (simple pv V1 A) as [A' V2] eqn:EA. injection E as <- <-. destruct (H1 _ _ _ EA V') as [V'' I'']; [intros x J; apply I, in_or_app; auto|]. split; [exact V''|]. cbn [occurring occurring_p]. intros x J. apply in_app_or in J as [J|J]; auto.
        + apply (H2 _ _ _ _ _ E V' I'). intros x J. apply I, in_or_app; auto. }
    split; [exact Q|]. intros k l0 s F' s' E V _ I. destruct k; cbn [apply] in E; exact (Q _ _ _ E V I).
  - intros c F [HF _] G [HG _]. assert (Q : forall s F' s', simple pv s (Joined c F G) = (F', s') -> of_values s -> (forall x, In x (occurring (Joined c F G)) -> Z x) -> of_values s' /\ (forall x, In x (occurring F') -> Z x)).
    { intros s F' s' E V I. cbn [occurring] in I. rewrite TruthProof.simple_joined in E. destruct (simple pv s F) as [F1 V1] eqn:EF. destruct (simple pv V1 G) as [G1 V2] eqn:EG. injection E as <- <-.
      destruct (HF _ _ _ EF V) as [V' I']; [intros x J; apply I, in_or_app; auto|]. destruct (HG _ _ _ EG V') as [V'' I'']; [intros x J; apply I, in_or_app; auto|].
      split; [exact V''|]. cbn [occurring]. intros x J. apply in_app_or in J as [J|J]; auto. }
    split; [exact Q|]. intros k l0 s F' s' E V _ I. destruct k; cbn [apply] in E; exact (Q _ _ _ E V I).
  - intros q y f G [HG HA]. assert (Q : forall s F' s', simple pv s (Binds q y f G) = (F', s') -> of_values s -> (forall x, In x (occurring (Binds q y f G)) -> Z x) -> of_values s' /\ (forall x, In x (occurring F') -> Z x)).
    { intros s F' s' E V I. cbn [occurring] in I. rewrite TruthProof.simple_binds in E. destruct (simple pv s G) as [G1 V2] eqn:EG. injection E as <- <-. exact (HG _ _ _ EG V I). }
    split; [exact Q|]. intros k l s F' s' E V L I. destruct k as [|k]; cbn [apply] in E; [exact (Q _ _ _ E V I)|]. cbn [occurring] in I. destruct l as [|l|a l].
    + refine (HA _ _ _ _ _ E _ L I). intros z a [K|K]; [discriminate|exact (V z a K)].
    + refine (HA _ _ _ _ _ E _ L I). intros z a [K|K]; [discriminate|exact (V z a K)].
    + refine (HA _ _ _ _ _ E _ _ I).
      * intros z a' [K|K]; [|exact (V z a' K)]. injection K as <- <-. intros x J. apply L. cbn. apply in_or_app; auto.
      * intros x J. apply L. cbn. apply in_or_app; auto.
  - intros q y f R [HR _] G [HG _]. assert (Q : forall s F' s', simple pv s (Limits q y f R G) = (F', s') -> of_values s -> (forall x, In x (occurring (Limits q y f R G)) -> Z x) -> of_values s' /\ (forall x, In x (occurring F') -> Z x)).
    { intros s F' s' E V I. cbn [occurring] in I. rewrite TruthProof.simple_limits in E. destruct (simple pv s R) as [R1 V1] eqn:ER.
      destruct (HR _ _ _ ER V) as [V' I']; [intros x J; apply I, in_or_app; auto|]. assert (IG : forall x, In x (occurring G) -> Z x) by (intros x J; apply I, in_or_app; auto).
      destruct (fixes pv q R1) as [[z c]|] eqn:Fx.
      - refine (HG _ _ _ E _ IG). intros u a [K|K]; [|exact (V' u a K)]. injection K as <- <-. intros x J. apply I'. eapply fixes_occurring; eassumption.
      - destruct (simple pv V1 G) as [G1 V2] eqn:EG. injection E as <- <-. destruct (HG _ _ _ EG V' IG) as [V'' I'']. split; [exact V''|]. cbn [occurring]. intros x J. apply in_app_or in J as [J|J]; auto. }
    split; [exact Q|]. intros k l0 s F' s' E V _ I. destruct k; cbn [apply] in E; exact (Q _ _ _ E V I).
  - auto.
  - intros F HF. exact HF.
  - intros v s o s' E V I. cbn [simple_t] in E. injection E as <- <-. split; [exact V|]. intros a' x E J. destruct (value s (var_number v)) as [o|] eqn:Ev.
    + subst o. apply value_in in Ev as (z & K). exact (V z a' K x J).
    + injection E as <-. exact (I x J).
  - intros t f s o s' E V I. cbn [simple_t] in E. injection E as <- <-. split; [exact V|]. intros a' x [= <-] [].
  - intros F [HF _] s o s' E V I. rewrite simple_that in E. destruct (simple pv s F) as [F1 V1] eqn:EF. injection E as <- <-. destruct (HF _ _ _ EF V I) as [V' I']. split; [exact V'|]. intros a' x [= <-] J. exact (I' x J).
  - intros l [_ Hm] s o s' E V I. rewrite simple_several in E. destruct (simple_m pv s l) as [l1 V1] eqn:EF. injection E as <- <-. destruct (Hm _ _ _ EF V I) as [V' I']. split; [exact V'|]. intros a' x [= <-] J. exact (I' x J).
  - split; intros s l' s' E V I; cbn in E; injection E as <- <-; auto.
  - intros l [Hl Hm]. split; intros s l' s' E V I.
    + rewrite simple_r_gap in E. destruct (simple_r pv s l) as [l1 V1] eqn:El. injection E as <- <-. exact (Hl _ _ _ El V I).
    + rewrite simple_m_gap in E. exact (Hm _ _ _ E V I).
  - intros a Ha l [Hl Hm]. split; intros s l' s' E V I; cbn [occurring_r] in I.
    + rewrite simple_r_item in E. destruct (simple_t pv s a) as [o V1] eqn:Ea. destruct (simple_r pv V1 l) as [l1 V2] eqn:El. injection E as <- <-.
      destruct (Ha _ _ _ Ea V) as [V' I']; [intros x J; apply I, in_or_app; auto|]. destruct (Hl _ _ _ El V') as [V'' I'']; [intros x J; apply I, in_or_app; auto|].
      split; [exact V''|]. intros x J. destruct o as [a'|]; [|exact (I'' x J)]. cbn [occurring_r] in J. apply in_app_or in J as [J|J]; [exact (I' a' x eq_refl J)|auto].
    + rewrite simple_m_item in E. destruct (simple_t pv s a) as [o V1] eqn:Ea. destruct (simple_m pv V1 l) as [l1 V2] eqn:El. injection E as <- <-.
      destruct (Ha _ _ _ Ea V) as [V' I']; [intros x J; apply I, in_or_app; auto|]. destruct (Hm _ _ _ El V') as [V'' I'']; [intros x J; apply I, in_or_app; auto|].
      split; [exact V''|]. intros x J. destruct o as [a'|]; [|exact (I'' x J)]. assert (K : In x (occurring_t a') \/ In x (occurring_r l1)).
      { destruct a'; cbn [occurring_r occurring_t] in J |- *; try (now apply in_app_or in J). apply occurring_app in J. exact J. }
      destruct K as [K|K]; [exact (I' a' x eq_refl K)|auto].
Qed.
End Occurring.

Section Frees.
Variable h : heap.
Definition unbound_at (l : list nat) : Prop := forall x, In x l -> exists r, nth_error h r = Some (CVariable x None false).
Lemma unbound_app l m : unbound_at l -> unbound_at m -> unbound_at (l ++ m).
Proof. intros A B x I. apply in_app_or in I as [I|I]; auto. Qed.
Lemma thing_frees r v : MeaningFacts.rthing h r v -> unbound_at (free_var v).
Proof. intros H x I. destruct H; cbn in I; [destruct I|]. destruct I as [<-|[]]. eauto. Qed.
Lemma prop_frees r p : MeaningFacts.rprop h r p -> unbound_at (frees_s p).
Proof. induction 1; cbn [frees_s]; [intros x []|eapply thing_frees; eassumption|now apply unbound_app]. Qed.
Lemma at_frees :
  (forall X r F, at_f h X r F -> unbound_at (frees F)) /\ (forall X r p, at_p h X r p -> unbound_at (frees_p p)) /\
  (forall X r a, at_t h X r a -> unbound_at (frees_t a)) /\ (forall X xs l, at_r h X xs l -> unbound_at (frees_r l)).
Proof.
  apply at_ind; cbn [frees frees_p frees_t frees_r]; intros; auto using unbound_app; try (intros ? []).
  - eapply prop_frees; eassumption.
  - eapply thing_frees; eassumption.
Qed.
End Frees.

Lemma no_elements (l : list nat) : (forall x, ~ In x l) -> l = [].
Proof. destruct l as [|x l]; [reflexivity|]. intros H. destruct (H x). now left. Qed.

Theorem literally_apart U d t G : outcome U d (Ok (Some t)) ->
  (forall n, In n d -> sentence_item n -> covered U (o_letters diacritic) n = true) ->
  literally U (o_letters diacritic) d G -> NoDup (binders G) /\ forall x, In x (frees G) -> ~ In x (binders G).
Proof.
  intros O Fo (G0 & t0 & It & ->). destruct O as [_ [fuel O]]. specialize (O fuel (le_n _)). unfold Simplify.interpret in O.
  destruct (discourse U (o_letters diacritic) fuel fuel d st0) as [[[x|] s]| |] eqn:Di; cbn [bind] in O; try discriminate.
  destruct (discourse_clauses _ _ _ _ _ _ _ Di Fo) as (G' & t' & k & X & It' & A & On & Nu & _). destruct (items_one U (o_letters diacritic) _ _ _ _ _ It _ _ It') as [E <-]. injection E as ->.
  rewrite (proj1 fill_frees), (proj1 fill_binders). destruct (proj1 (at_binders _ _ Nu) _ _ _ A) as [Bi D]. split; [apply D, On|].
  intros y I J. destruct (proj1 (at_frees _) _ _ _ A y I) as (r0 & E). destruct (Bi y J) as (b & _ & N).
  exact (proj2 (MeaningFacts.u_free _ _ Nu _ _ _ E) b N).
Qed.
Lemma literally_loose U d t G : outcome U d (Ok (Some t)) ->
  (forall n, In n d -> sentence_item n -> covered U (o_letters diacritic) n = true) ->
  literally U (o_letters diacritic) d G -> stray G = [] -> regular G = tame G.
Proof.
  intros O Fo L St. destruct (literally_apart _ _ _ _ O Fo L) as [D Fr]. unfold regular. rewrite (nodup_distinct _ D), andb_true_r.
  replace (apart (loose G) (binders G)) with true; [apply andb_true_r|]. symmetry. apply apart_spec. intros x I. apply (proj1 loose_split) in I as [I|I]; [rewrite St in I; destruct I|exact (Fr x I)].
Qed.
Lemma simplified_stray G : tame G = true -> NoDup (binders G) -> (forall x, In x (frees G) -> ~ In x (binders G)) -> stray G = [] -> stray (simplified G) = [].
Proof.
  intros T D Fr St. unfold simplified. destruct (simple (as_predicates G) [] G) as [F' V'] eqn:E. cbn [fst].
  assert (Ap : forall x, In x (loose G) -> ~ In x (binders G)) by (intros x I; apply (proj1 loose_split) in I as [I|I]; [rewrite St in I; destruct I|exact (Fr x I)]).
  apply no_elements. intros x I. destruct (simple_truth (small (fun _ _ => False) (fun _ _ => False)) (small_lawful _ _) (as_predicates G)) as (H & _). destruct (H G) as [Q _].
  destruct (Q [] F' V' E T (incl_refl _)) as (_ & Lo & _); [split; [exact D|]; split; [exact Ap|]; split; [reflexivity|discriminate]|].
  destruct (proj1 (simple_occurring (as_predicates G) (fun x => In x (occurring G))) G) as [Oc _].
  destruct (Oc [] F' V' E) as [_ Oc']; [intros y a []|auto|]. specialize (Oc' x (proj1 stray_occurring _ _ I)).
  apply (proj1 occurring_split) in Oc'. destruct Oc' as [Oc'|Oc']; [rewrite St in Oc'; destruct Oc'|].
  destruct (Lo x (proj1 stray_loose _ _ I)) as [[J _]|(y & a & _ & K & _)]; [exact (Ap x J Oc')|discriminate].
Qed.

(** ** Orderly texts *)

Section Texts.
Variable U : unicode.
Notation ol := (o_letters diacritic).
Variables (d : list node).
Hypothesis W : forall n, In n d -> sentence_item n -> well_ordered U ol n = true.
Lemma all_covered n : In n d -> sentence_item n -> covered U ol n = true.
Proof. intros I S0. apply well_ordered_covered, W; assumption. Qed.
Lemma orderly_stray t F : outcome U d (Ok (Some t)) -> conveys U ol d F -> stray F = [].
Proof.
  intros O (G & t0 & It & ->). set (L := fill None _). assert (Li : literally U ol d L) by (exists G, t0; auto).
  destruct (literally_orderly _ _ _ _ Li W) as [St T]. destruct (literally_apart _ _ _ _ O all_covered Li) as [D Fr]. now apply simplified_stray.
Qed.
Theorem orderly_scoped t : outcome U d (Ok (Some t)) -> scoped t.
Proof.
  intros O. destruct t as [r h]. destruct (clauses_mean U d r h O all_covered) as (F & bn & name & C & _).
  apply (covered_scoped U d (r, h) F O all_covered C). eapply orderly_stray; eassumption.
Qed.
Theorem orderly_truth r h : outcome U d (Ok (Some (r, h))) ->
  exists G F bn name, literally U ol d G /\ shows h bn name r F /\
    (forall x y, is_binding h x = true -> is_binding h y = true -> bn x = bn y -> x = y) /\
    (forall x y, unbound h x = true -> unbound h y = true -> name x = name y -> x = y) /\
    distinct (binders G) = true /\ stray G = [] /\ stray F = [] /\ equivalent F G.
Proof.
  intros O. destruct (clauses_mean U d r h O all_covered) as (F & bn & name & C & Sh & N1 & N2). assert (C' := C). destruct C' as (G & t0 & It & EF).
  eexists _, F, bn, name. assert (Li : literally U ol d (fill None (around (n_outer t0) G))) by (exists G, t0; auto).
  destruct (literally_orderly _ _ _ _ Li W) as [St T]. destruct (literally_apart _ _ _ _ O all_covered Li) as [D Fr].
  split; [exact Li|]. split; [exact Sh|]. split; [exact N1|]. split; [exact N2|]. split; [now apply nodup_distinct|]. split; [exact St|]. split; [eapply orderly_stray; eassumption|].
  subst F. apply regular_truth. fold (around (n_outer t0) G). now rewrite (literally_loose _ _ _ _ O all_covered Li St).
Qed.
End Texts.

Theorem truth_scoped U d r h : outcome U d (Ok (Some (r, h))) ->
  (forall n, In n d -> sentence_item n -> covered U (o_letters diacritic) n = true) ->
  exists G F bn name, literally U (o_letters diacritic) d G /\ shows h bn name r F /\
    (forall x y, is_binding h x = true -> is_binding h y = true -> bn x = bn y -> x = y) /\
    (forall x y, unbound h x = true -> unbound h y = true -> name x = name y -> x = y) /\
    (stray G = [] -> tame G = true -> equivalent F G).
Proof.
  intros O Fo. destruct (clauses_mean U d r h O Fo) as (F & bn & name & (G & t0 & It & ->) & Sh & N1 & N2).
  assert (Li : literally U (o_letters diacritic) d (fill None (around (n_outer t0) G))) by (exists G, t0; auto).
  eexists _, _, bn, name. split; [exact Li|]. split; [exact Sh|]. split; [exact N1|]. split; [exact N2|]. intros St T. apply regular_truth. fold (around (n_outer t0) G).
  now rewrite (literally_loose _ _ _ _ O Fo Li St).
Qed.

Theorem orderly_text is_punct text p lead d U : reach is_punct text p ->
  fst (text_of is_punct p) = Ok (Got (Some (NText lead d))) -> Shown.plain_unicode U ->
  (forall n, In n d -> is_sentence n = true -> well_sorted n = true /\ supported U n = true /\ well_ordered U (o_letters diacritic) n = true) ->
  has_sentence d ->
  exists G F t s name, (forall F', conveys U (o_letters diacritic) d F' <-> F' = F) /\
    (forall G', literally U (o_letters diacritic) d G' <-> G' = G) /\ equivalent F G /\
    outcome U d (Ok (Some t)) /\ scoped t /\ prints U (Some t) s /\
    told_apart name F /\ (forall x, Shown.var_name (name x) = true) /\
    (s = form_text name F \/ s = (form_text name F ++ ".")%string).
Proof.
  intros R E PU S0 Hs. assert (W : forall n, In n d -> sentence_item n -> well_ordered U (o_letters diacritic) n = true) by (intros n I J; apply (S0 n I), ScopeTotal.item_sentence, J).
  destruct (text_clauses is_punct text p lead d U R E PU) as (F & t & s & C & O & P & Sc & Sh).
  - intros n I J. destruct (S0 n I J) as (A & B & K). split; [exact A|]. split; [exact B|]. now apply well_ordered_covered.
  - exact Hs.
  - assert (C0 := proj2 (C F) eq_refl). assert (St := orderly_stray U d W t F O C0). destruct (Sh St) as (name & Ta & Vn & Ts).
    destruct C0 as (G & t0 & It & EF). assert (Li : literally U (o_letters diacritic) d (fill None (around (n_outer t0) G))) by (exists G, t0; auto).
    exists (fill None (around (n_outer t0) G)), F, t, s, name. split; [exact C|]. split; [intros G'; split; [intros L; eapply literally_one; eassumption|intros ->; exact Li]|].
    destruct (literally_orderly _ _ _ _ Li W) as [StG T]. split.
    { subst F. apply regular_truth. fold (around (n_outer t0) G). rewrite (literally_loose _ _ _ _ O (all_covered U d W) Li StG). exact T. }
    split; [exact O|]. split; [exact (orderly_scoped U d W t O)|]. auto.
Qed.

(** ** Cases *)

Definition orderly_example : string :=
  "tu poq/ bi kuq? poq/ jeo~ ne\ suq/ fa^ poq/ giV hoa/ ra suq/ da mai? lu/ deq? hoa/ ji/ da mai? mo/ hao? teo ji/ da po? suq/ ji/".
Definition orderly_ok (text : string) : bool :=
  match discourse_of text with Some d => forallb (fun n => implb (is_sentence n) (well_ordered ascii_unicode (o_letters diacritic) n)) d | None => false end.
Lemma orderly_text_case : exists lead d,
  fst (text_of ascii_punct (new_parser orderly_example)) = Ok (Got (Some (NText lead d))) /\ has_sentence d /\
  forall n, In n d -> is_sentence n = true ->
    well_sorted n = true /\ supported ascii_unicode n = true /\ well_ordered ascii_unicode (o_letters diacritic) n = true.
Proof.
  assert (T : LogicSafe.text_ok orderly_example = true) by (vm_compute; reflexivity). destruct (LogicSafe.text_ok_case _ T) as (lead & d & P & H & S).
  exists lead, d. split; [exact P|]. split; [exact H|]. intros n I J. destruct (S n I J) as [A B]. split; [exact A|]. split; [exact B|].
  assert (Q : orderly_ok orderly_example = true) by (vm_compute; reflexivity). unfold orderly_ok, discourse_of, parsed in Q. rewrite P in Q.
  rewrite forallb_forall in Q. apply Q in I. rewrite J in I. exact I.
Qed.
Lemma orderly_logic : logic_string orderly_example = Ok "[ιP0 : poq(P0)] [ιS0 : suq(S0)] [ιP1 : poq(P1) ∧ (gi(P1) ∨ gi(S0))] [ιS1 : suq(S1)] [ιJ0 : ji(J0)] [ιD : deq(D, J0)] [ιJ1 : ji(J1)] [ιJ2 : ji(J2)] [ιS2 : suq(S2)] ([∀P2 : poq(P2)] jeo({ne({kuq(P0, {fa(P1)})}, S1)})) ∧ mai(D) ∧ mai(«hảo», J1) ∧ raq(J2, S2)."%string.
Proof. vm_compute. reflexivity. Qed.

Definition orders_text (text : string) : bool :=
  match discourse_of text with Some d => forallb (well_ordered ascii_unicode (o_letters diacritic)) d | None => false end.
Lemma ordered_text text s : orders_text text = true -> covers_text text = true -> logic_string text = Ok s -> match logic_of text with Ok (Some _) => true | _ => false end = true ->
  exists d t, parses text d /\ outcome ascii_unicode d (Ok (Some t)) /\ prints ascii_unicode (Some t) s /\
    forall n, In n d -> sentence_item n -> well_ordered ascii_unicode (o_letters diacritic) n = true.
Proof.
  intros Or Co L S. destruct (covered_text text s Co L S) as (d & t & D & P & O & Pr & _). exists d, t. split; [exact P|]. split; [exact O|]. split; [exact Pr|].
  unfold orders_text in Or. rewrite D in Or. rewrite forallb_forall in Or. auto.
Qed.
Lemma orderly_scoped_case : exists d t, parses "mai? go ji/ ne\ suq/ giV hoa/ fi poq/" d /\ outcome ascii_unicode d (Ok (Some t)) /\
  prints ascii_unicode (Some t) "[ιJ : ji(J)] [ιP : poq(P)] [ιS : suq(S) ∧ gi(P, S)] ne({mai(·, J)}, S)." /\
  forall n, In n d -> sentence_item n -> well_ordered ascii_unicode (o_letters diacritic) n = true.
Proof. apply ordered_text; vm_compute; reflexivity. Qed.
Lemma orderly_truth_case : exists d t, parses "tu do/ ne\ do/ bi kuq? ji/ fa^ do/" d /\ outcome ascii_unicode d (Ok (Some t)) /\
  prints ascii_unicode (Some t) "[ιJ : ji(J)] ∀X ne({kuq(J, {fa(X)})}, X)." /\
  forall n, In n d -> sentence_item n -> well_ordered ascii_unicode (o_letters diacritic) n = true.
Proof. apply ordered_text; vm_compute; reflexivity. Qed.

(** The texts of C35_stray_case and C56_refuted are covered, and not well ordered. *)
Lemma disorderly : orders_text "fa? ji/ roi suq/ ne\ poq/" = false /\ covers_text "fa? ji/ roi suq/ ne\ poq/" = true /\
  orders_text "ji/ pa lu? hoa? poq/ " = false /\ covers_text "ji/ pa lu? hoa? poq/ " = true.
Proof. vm_compute. auto. Qed.
