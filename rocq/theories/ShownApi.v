(** What String writes for a first-order text, and what it tells. *)

From Coq Require Import Ascii String NArith List Bool Arith Lia.
From Verif Require Import Base Utf8 PegSyntax Tone Ast AstSorts Logic LogicWords LogicSpec ScopeSpec Interp Simplify LogicString LogicFuel LogicApi OrderFacts SeqFacts TermFacts
  ScopeFacts ScopeNum ScopeInterp ScopeRun ScopeSimp Meaning MeaningFacts MeaningNames MeaningRun MeaningStep MeaningBody MeaningArgs MeaningSpecs MeaningEnd MeaningHoa MeaningOne
  Shown ShownRead ShownFacts ShownNums ShownHeap.
Import ListNotations.
Open Scope string_scope.
Open Scope list_scope.
Open Scope nat_scope.

(** The tree before its variables are numbered, and afterwards. *)
Lemma first_order_tree U d r h : outcome U d (Ok (Some (r, h))) ->
  (forall n, In n d -> sentence_item n -> first_order U (o_letters diacritic) n = true) ->
  exists F h1 k f l, means U (o_letters diacritic) d F /\ rform h1 r F /\ nums h1 k /\ closed r h1 /\ visited h1 f r = Ok l /\ renumber l 0 h1 = Ok h.
Proof.
  intros [_ [fuel O]] Fo. specialize (O fuel (le_n _)). unfold interpret in O.
  destruct (discourse U (o_letters diacritic) fuel fuel d st0) as [[[x|] s]| |] eqn:D; cbn [bind] in O; try discriminate.
  destruct (discourse_means _ _ _ _ _ _ _ D Fo) as (G & t & k & It & Rg & Nu).
  apply discourse_closed in D; [|exact Fo]. destruct D as [W _ S Or' _ F].
  assert (C0 : closed x (s_heap s)) by (split; assumption).
  unfold simplify_statement in O. destruct (add_hoa fuel x None (SSt (s_heap s) [])) as [[u s1]| |] eqn:A; cbn [bind] in O; try discriminate.
  destruct (hoa_filled _ _ _ C0 Nu _ _ _ _ A Rg) as [Rf Nf].
  apply hoa_closed with (root := x) in A; [|exact C0|discriminate]. destruct A as (C & _ & Sx). cbn [fst snd x_heap x_sub] in *.
  destruct (pred_vars fuel (x_heap s1) x) as [pv| |]; cbn [bind] in O; try discriminate.
  destruct (simplify pv fuel RStatement x (SSt (x_heap s1) [])) as [[o s2]| |] eqn:Si; cbn [bind] in O; try discriminate.
  apply simplify_plain in Si; [|exact (w_fo _ (c_wf _ _ C))|reflexivity]. destruct Si as [-> ->]. cbn [x_heap] in O.
  destruct (sequence_var_nums fuel (x_heap s1) x) as [h2| |] eqn:Sq; cbn [bind] in O; try discriminate. injection O as -> ->.
  unfold sequence_var_nums in Sq. destruct (visited (x_heap s1) fuel r) as [l| |] eqn:V; cbn [bind] in Sq; try discriminate.
  exists (filled None (around (t_outer t) G)), (x_heap s1), k, fuel, l. repeat match goal with |- _ /\ _ => split end; try assumption.
  exists G, t. split; [exact It|reflexivity].
Qed.

(** What is in scope is a statement. *)
Lemma occurs_stmt h r sc x : occurs h r sc x -> forall d, In d sc -> stmtb h d = true.
Proof.
  induction 1 as [r|r c k sc x E K O IH]; intros d I; [destruct I|].
  destruct c; auto. destruct I as [<-|I]; [unfold stmtb; rewrite E; reflexivity|auto].
Qed.
Lemma bare_stmtb h h' x : bare h = bare h' -> stmtb h x = stmtb h' x.
Proof. intros B. apply bare_nth with (i := x) in B. unfold stmtb. destruct (nth_error h x) as [c|], (nth_error h' x) as [c'|]; try discriminate; [|reflexivity]. injection B as B. destruct c, c'; try discriminate; reflexivity. Qed.

Lemma fine_weaken (P Q : string -> Prop) : (forall s, P s -> Q s) -> forall F, fine P F -> fine Q F.
Proof.
  intros I. fix IH 1. intros F H. destruct F as [p l|c l r|q x f R G]; cbn [fine] in *.
  - induction p as [s|t|a IHa b IHb]; cbn in *; [auto|trivial|destruct H; auto].
  - destruct H. split; apply IH; assumption.
  - destruct H as (A & B & C). split; [exact A|]. split; [destruct R; [apply IH, B|trivial]|apply IH, C].
Qed.
Lemma word_pred_name s : word_name s = true -> pred_name s = true.
Proof.
  unfold word_name, pred_name. intros H. apply orb_true_iff in H. destruct H as [->|H]; [reflexivity|]. apply orb_true_iff. right.
  destruct s as [|c s]; [discriminate|]. apply andb_true_iff in H. apply H.
Qed.

Theorem first_order_shown U d t s F : outcome U d (Ok (Some t)) -> plain_upper U ->
  (forall n, In n d -> sentence_item n -> first_order U (o_letters diacritic) n = true) -> spoken U d ->
  means U (o_letters diacritic) d F -> prints U (Some t) s ->
  exists name, apart name F /\ (forall x, var_name (name x) = true) /\ fine (fun n => word_name n = true) F /\
    (s = formula_text name F \/ s = (formula_text name F ++ ".")%string).
Proof.
  destruct t as [r h]. intros O PU Fo Sp M [pf P]. destruct (first_order_tree _ _ _ _ O Fo) as (F' & h1 & k & f & l & M' & Rf & Nu & C & V & Rn).
  rewrite (means_one _ _ _ _ _ M' M) in Rf. clear F' M'.
  assert (B : bare h = bare h1) by (eapply renumber_bare, Rn).
  assert (Sc := first_order_scoped _ _ _ O Fo).
  assert (Vh : visited h f r = Ok l) by (rewrite (visited_bare _ _ B); exact V).
  assert (Sm : forall x d, In x l -> refers h x d -> In d l /\ number h x = number h d).
  { intros x b I R. destruct (visited_occurs _ _ _ _ _ Vh I) as (sc & Oc). destruct (occurs_before _ _ _ _ Oc _ _ Vh) as [_ Bf].
    destruct (Bf b (Sc _ _ _ Oc R)) as [B1 B2]. assert (Ib : In b l) by (destruct B1 as (p & q & z & ->); rewrite in_app_iff; right; left; reflexivity). split; [exact Ib|].
    assert (B2' : introduces h1 b = true) by (rewrite <- (bare_introduces _ _ _ B); exact B2).
    assert (R' : refers h1 x b) by (eapply bare_refers; [exact B|exact R]).
    apply (refers_once _ _ _ _ x b Rn); try assumption. eapply once_filter; [eapply statements_once; [exact (c_wf _ _ C)|exact V]|].
    rewrite <- (bare_stmtb _ _ _ B). exact (occurs_stmt _ _ _ _ Oc _ (Sc _ _ _ Oc R)). }
  assert (Ap : forall x y, In x l -> In y l -> introduces h x = true -> introduces h y = true -> number h x = number h y -> x = y).
  { intros x y Ix Iy Jx Jy. apply (proj2 (introduced _ _ _ _ Rn)); try assumption; rewrite <- (bare_introduces _ _ _ B); assumption. }
  assert (Fi : fine (fun n => word_name n = true) F).
  { eapply means_fine; [|exact M|]; [reflexivity|]. intros n I J. apply Forall_forall. intros w W. exact (Sp n w I J W). }
  assert (De : forall z, In z l -> desc h1 r z) by (intros z I; eapply visited_desc; eassumption).
  assert (Re : reaches h1 l r) by (intros z D; eapply desc_visited; eassumption).
  specialize (P (pf + f) ltac:(lia)).
  assert (Vp : visited h (pf + f) r = Ok l) by (destruct (le_visited h f (pf + f) r ltac:(lia)) as [X|X]; congruence).
  destruct (print_capped U (pf + f) r h s) as (names & body & Sh & Inj & Vn & E).
  { intros l' seen V' Vr v c I. rewrite Vp in V'. injection V' as <-. eapply (letters U h h1 k l); try eassumption. auto. }
  { exact P. }
  exists (fun x => show_var false names (renamed h h1 l x)).
  assert (T := form_show h h1 k l B Nu Sm names _ _ _ _ Rf Re Sh). subst body.
  split; [|split; [intros x; apply Vn|split; [exact Fi|destruct names; auto]]].
  intros x y Ix Iy Exy. apply Inj in Exy. eapply (renamed_apart h h1 k l); eassumption.
Qed.

Theorem shown_as U d t s F : outcome U d (Ok (Some t)) -> plain_upper U ->
  (forall n, In n d -> sentence_item n -> first_order U (o_letters diacritic) n = true) -> spoken U d ->
  means U (o_letters diacritic) d F -> prints U (Some t) s ->
  exists name, apart name F /\ (forall x, var_name (name x) = true) /\ (s = formula_text name F \/ s = (formula_text name F ++ ".")%string).
Proof. intros O PU Fo Sp M P. destruct (first_order_shown _ _ _ _ _ O PU Fo Sp M P) as (name & A & V & _ & E). exists name. auto. Qed.

(** The same output, the same formula. *)
Theorem first_order_read U1 U2 d1 d2 t1 t2 F1 F2 s :
  outcome U1 d1 (Ok (Some t1)) -> plain_upper U1 -> (forall n, In n d1 -> sentence_item n -> first_order U1 (o_letters diacritic) n = true) -> spoken U1 d1 ->
  outcome U2 d2 (Ok (Some t2)) -> plain_upper U2 -> (forall n, In n d2 -> sentence_item n -> first_order U2 (o_letters diacritic) n = true) -> spoken U2 d2 ->
  means U1 (o_letters diacritic) d1 F1 -> means U2 (o_letters diacritic) d2 F2 ->
  prints U1 (Some t1) s -> prints U2 (Some t2) s ->
  exists name1 name2, apart name1 F1 /\ apart name2 F2 /\ shape_of name1 F1 = shape_of name2 F2.
Proof.
  intros O1 P1 Fo1 S1 O2 P2 Fo2 S2 M1 M2 Pr1 Pr2.
  destruct (first_order_shown _ _ _ _ _ O1 P1 Fo1 S1 M1 Pr1) as (n1 & A1 & V1 & G1 & E1). destruct (first_order_shown _ _ _ _ _ O2 P2 Fo2 S2 M2 Pr2) as (n2 & A2 & V2 & G2 & E2).
  exists n1, n2. split; [exact A1|]. split; [exact A2|].
  assert (Ex : forall name F, s = formula_text name F \/ s = (formula_text name F ++ ".")%string -> exists e, stop e /\ s = (shape_text (shape_of name F) ++ e)%string).
  { intros name F [E|E]; rewrite shape_text_ok; [exists ""; split; [exact I|rewrite sapp_nil; exact E]|exists "."; split; [left; reflexivity|exact E]]. }
  destruct (Ex _ _ E1) as (e1 & St1 & Q1). destruct (Ex _ _ E2) as (e2 & St2 & Q2).
  assert (Good : forall name F, (forall x, var_name (name x) = true) -> fine (fun n => word_name n = true) F -> good (shape_of name F)).
  { intros name F V G. apply shape_good; [auto|]. eapply fine_weaken; [|exact G]. apply word_pred_name. }
  refine (proj1 (shapes_apart _ _ e1 (Good _ _ V1 G1) (Good _ _ V2 G2) St1 e2 St2 _)). congruence.
Qed.
