(** What Interpret returns says the same as the discourse, and cases where it does not. *)

From Coq Require Import String NArith List Bool Arith Lia.
From Verif Require Simplify.
From Verif Require Import Base Utf8 PegSyntax Tone Ast Parser ParserSpec AstCases AstSorts Logic LogicWords LogicSpec ScopeSpec Interp LogicString LogicApi LogicCases
  OrderFacts SeqFacts TermFacts ScopeFacts ScopeInterp Meaning MeaningFacts Clauses ClauseHeap ClauseHoa ClauseSimp ClauseRun ClauseEnd ClauseOne ClauseCases Truth TruthFacts TruthProof.
From Verif Require MeaningApi.
Import ListNotations.
Open Scope string_scope.
Open Scope list_scope.
Open Scope nat_scope.

(** ** Different bindings bind different variables *)

Section Binders.
Variables (h : heap) (k : nat).
Hypothesis Nu : nums h k.

Definition bound_in (X : list ref) (l : list nat) : Prop := forall x, In x l -> exists r, In r X /\ num h r x.
Lemma bound_in_app X Y l m : bound_in X l -> bound_in Y m -> bound_in (X ++ Y) (l ++ m).
Proof. intros B B' x I. apply in_app_or in I as [I|I]; [destruct (B x I) as (r & J & N)|destruct (B' x I) as (r & J & N)]; exists r; (split; [apply in_or_app; auto|exact N]). Qed.
Lemma bound_in_cons r X l : bound_in X l -> bound_in (r :: X) l.
Proof. intros B x I. destruct (B x I) as (r' & J & N). exists r'. split; [now right|exact N]. Qed.
Lemma nodup_join X Y l m : once (X ++ Y) -> bound_in X l -> bound_in Y m -> NoDup l -> NoDup m -> NoDup (l ++ m).
Proof.
  intros O B B' D D'. induction l as [|x l IH]; cbn; [exact D'|]. apply NoDup_cons_iff in D as [N D]. constructor.
  - intros I. apply in_app_or in I as [I|I]; [contradiction|]. destruct (B x (or_introl eq_refl)) as (r & J & Nr), (B' x I) as (r' & J' & Nr').
    assert (r = r') as <- by (eapply (u_one _ _ Nu); eassumption). specialize (O r). rewrite cnt_app in O.
    assert (cnt X r >= 1) by (apply count_occ_In with (eq_dec := Nat.eq_dec) in J; exact J). assert (cnt Y r >= 1) by (apply count_occ_In with (eq_dec := Nat.eq_dec) in J'; exact J'). lia.
  - apply IH; [intros y I; apply B; now right|exact D].
Qed.

Lemma once_app X Y : once (X ++ Y) -> once X /\ once Y.
Proof. intros O. split; intros i; specialize (O i); rewrite cnt_app in O; lia. Qed.
Lemma once_cons r X : once (r :: X) -> once X /\ ~ In r X.
Proof.
  intros O. split; [intros i; specialize (O i); rewrite cnt_cons in O; lia|]. intros I. specialize (O r). rewrite cnt_cons, Nat.eqb_refl in O.
  apply count_occ_In with (eq_dec := Nat.eq_dec) in I. unfold cnt in O. lia.
Qed.
Lemma once_swap X Y : once (X ++ Y) -> once (Y ++ X).
Proof. intros O i. specialize (O i). rewrite cnt_app in *. lia. Qed.
Lemma bound_in_swap X Y l : bound_in (X ++ Y) l -> bound_in (Y ++ X) l.
Proof. intros B x I. destruct (B x I) as (r & J & N). exists r. split; [|exact N]. apply in_or_app. apply in_app_or in J. tauto. Qed.
Lemma nodup_front r n X l : num h r n -> ~ In r X -> bound_in X l -> NoDup l -> NoDup (n :: l).
Proof.
  intros N Nr B D. constructor; [|exact D]. intros I. destruct (B n I) as (r' & J & N'). assert (r = r') as <- by (eapply (u_one _ _ Nu); eassumption). contradiction.
Qed.
Lemma bound_in_front r n X l : num h r n -> bound_in X l -> bound_in (r :: X) (n :: l).
Proof. intros N B x [<-|I]; [exists r; split; [now left|exact N]|]. exact (bound_in_cons r X l B x I). Qed.

Lemma at_binders :
  (forall X r F, at_f h X r F -> bound_in X (binders F) /\ (once X -> NoDup (binders F))) /\
  (forall X r p, at_p h X r p -> bound_in X (binders_p p) /\ (once X -> NoDup (binders_p p))) /\
  (forall X r a, at_t h X r a -> bound_in X (binders_t a) /\ (once X -> NoDup (binders_t a))) /\
  (forall X xs l, at_r h X xs l -> bound_in X (binders_r l) /\ (once X -> NoDup (binders_r l))).
Proof.
  apply at_ind; cbn [binders binders_p binders_t binders_r].
  - intros r x xs p l X Y E _ [Bp Dp] _ [Bl Dl]. split; [apply bound_in_cons, bound_in_swap, bound_in_app; assumption|]. intros O. apply once_cons in O as [O _].
    pose proof (once_app _ _ O) as [O1 O2]. eapply nodup_join; [apply once_swap, O|exact Bl|exact Bp|auto..].
  - intros r c x y F G X Y E _ [Bp Dp] _ [Bl Dl]. split; [apply bound_in_cons, bound_in_app; assumption|]. intros O. apply once_cons in O as [O _].
    pose proof (once_app _ _ O) as [O1 O2]. eapply nodup_join; [exact O|exact Bp|exact Bl|auto..].
  - intros r q n f s G X E _ [B D]. assert (N : num h r n) by (unfold num; eauto). split; [now apply bound_in_front|]. intros O. apply once_cons in O as [O Nr]. eapply nodup_front; eauto.
  - intros r q n f x s R G X Y E _ [Bp Dp] _ [Bl Dl]. assert (N : num h r n) by (unfold num; eauto). split; [apply bound_in_front, bound_in_app; assumption|].
    intros O. apply once_cons in O as [O Nr]. pose proof (once_app _ _ O) as [O1 O2]. eapply nodup_front; [exact N|exact Nr|apply bound_in_app; eassumption|].
    eapply nodup_join; [exact O|exact Bp|exact Bl|auto..].
  - intros r p _. split; [intros x []|constructor].
  - intros r x F X E _ [B D]. split; [now apply bound_in_cons|]. intros O. apply once_cons in O as [O _]. auto.
  - intros r v _. split; [intros x []|constructor].
  - intros r s f _. split; [intros x []|constructor].
  - intros r x F X E _ [B D]. split; [now apply bound_in_cons|]. intros O. apply once_cons in O as [O _]. auto.
  - intros r x F X E _ [B D]. split; [now apply bound_in_cons|]. intros O. apply once_cons in O as [O _]. auto.
  - split; [intros x []|constructor].
  - intros xs l X _ H. exact H.
  - intros x xs a l X Y _ [Bp Dp] _ [Bl Dl]. split; [apply bound_in_app; assumption|]. intros O.
    pose proof (once_app _ _ O) as [O1 O2]. eapply nodup_join; [exact O|exact Bp|exact Bl|auto..].
Qed.
End Binders.

Lemma nodup_distinct l : NoDup l -> distinct l = true.
Proof.
  induction 1 as [|x l N D IH]; [reflexivity|]. cbn [distinct]. rewrite IH, andb_true_r. now apply not_among.
Qed.
Lemma fill_binders :
  (forall F b, binders (fill b F) = binders F) /\ (forall p, binders_p (fill_p p) = binders_p p) /\
  (forall a, binders_t (fill_t a) = binders_t a) /\ (forall l, binders_r (fill_r l) = binders_r l).
Proof.
  apply forms_ind.
  - intros p Hp l Hl b. destruct b as [x|], l as [|l|a l]; cbn [fill]; try (cbn [binders]; now rewrite Hp, Hl).
    destruct (existsb (Nat.eqb x) (numbers_p p)); cbn [binders binders_r binders_t app]; now rewrite Hp.
  - intros c F HF G HG b. cbn [fill binders]. now rewrite HF, HG.
  - intros q x f G HG b. cbn [fill binders]. now rewrite HG.
  - intros q x f R HR G HG b. cbn [fill binders]. now rewrite HR, HG.
  - reflexivity.
  - intros F HF. cbn [fill_p binders_p]. apply HF.
  - reflexivity.
  - reflexivity.
  - intros F HF. cbn [fill_t binders_t]. apply HF.
  - intros l Hl. cbn [fill_t binders_t]. apply Hl.
  - reflexivity.
  - intros l Hl. cbn [fill_r binders_r]. apply Hl.
  - intros a Ha l Hl. cbn [fill_r binders_r]. now rewrite Ha, Hl.
Qed.

Lemma literally_one U ol d F F' : literally U ol d F -> literally U ol d F' -> F = F'.
Proof.
  intros (G & t & H & ->) (G' & t' & H' & ->). destruct (items_one U ol _ _ _ _ _ H _ _ H') as [E ->]. now injection E as ->.
Qed.

Theorem truth_kept U d r h : outcome U d (Ok (Some (r, h))) ->
  (forall n, In n d -> sentence_item n -> covered U (o_letters diacritic) n = true) ->
  exists G F bn name, literally U (o_letters diacritic) d G /\ shows h bn name r F /\
    (forall x y, is_binding h x = true -> is_binding h y = true -> bn x = bn y -> x = y) /\
    (forall x y, unbound h x = true -> unbound h y = true -> name x = name y -> x = y) /\
    distinct (binders G) = true /\
    (tame G = true -> apart (loose G) (binders G) = true -> equivalent F G).
Proof.
  intros O Fo. destruct (clauses_mean U d r h O Fo) as (F & bn & name & (G & t & It & ->) & Sh & Nb & Nn).
  eexists _, _, bn, name. split; [exists G, t; split; [exact It|reflexivity]|]. split; [exact Sh|]. split; [exact Nb|]. split; [exact Nn|].
  assert (D : distinct (binders (fill None (fold_right (fun b G => Limits QThe (fst b) false (snd b) G) G (n_outer t)))) = true).
  { rewrite (proj1 fill_binders). destruct O as [_ [fuel O]]. specialize (O fuel (le_n _)). unfold Simplify.interpret in O.
    destruct (discourse U (o_letters diacritic) fuel fuel d st0) as [[[x|] s]| |] eqn:Di; cbn [bind] in O; try discriminate.
    destruct (discourse_clauses _ _ _ _ _ _ _ Di Fo) as (G' & t' & k & X & It' & A & On & Nu & _). destruct (items_one U (o_letters diacritic) _ _ _ _ _ It _ _ It') as [E <-]. injection E as ->.
    apply nodup_distinct. apply (proj1 (at_binders _ _ Nu) _ _ _ A), On. }
  split; [exact D|]. intros T A. apply regular_truth. unfold regular. now rewrite T, D, A.
Qed.
