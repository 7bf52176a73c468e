(** Nil results, connected arguments and connected arguments of prepositions. *)

From Coq Require Import String NArith List Bool Arith Lia.
From Verif Require Import Base PegSyntax Ast AstSorts Logic LogicWords LogicSpec Interp Simplify.
Import ListNotations.
Open Scope string_scope.
Open Scope list_scope.
Open Scope nat_scope.

(** ** Inverting a run that returns *)

Lemma mbind_ok {S A B} (m : Logic.M S A) (f : A -> Logic.M S B) s b s' :
  mbind m f s = Ok (b, s') -> exists a s1, m s = Ok (a, s1) /\ f a s1 = Ok (b, s').
Proof. unfold mbind. destruct (m s) as [[a s1]| |]; try discriminate. eauto. Qed.
Lemma ret_ok {S A} (a b : A) (s s' : S) : ret a s = Ok (b, s') -> a = b /\ s = s'.
Proof. unfold ret. intros E. injection E as <- <-. auto. Qed.
Lemma with_vars_ok {A} (m : Interp.M A) s a s' : with_vars m s = Ok (a, s') ->
  exists s1, m s = Ok (a, s1) /\ s_heap s' = s_heap s1.
Proof.
  unfold with_vars. intros E. apply mbind_ok in E. destruct E as (vs & s0 & E0 & E). injection E0 as <- <-.
  apply mbind_ok in E. destruct E as (b & s1 & E1 & E). apply mbind_ok in E. destruct E as (u & s2 & E2 & E).
  apply ret_ok in E. destruct E as [<- <-]. injection E2 as <- <-. exists s1. auto.
Qed.
Lemma assert_ok l n m s s' : assert l n s = Ok (m, s') -> m = n /\ s' = s.
Proof. unfold assert. destruct (among l n); [|discriminate]. intros E. apply ret_ok in E. intuition congruence. Qed.

Ltac minv H :=
  match type of H with
  | mbind _ _ _ = Ok _ =>
      let a := fresh "a" in let s1 := fresh "s" in let E := fresh "E" in
      apply mbind_ok in H; destruct H as (a & s1 & E & H);
      try match type of a with
          | (_ * _)%type => destruct a; cbv beta iota in H
          | unit => destruct a; cbv beta iota in H
          end
  | ret _ _ = Ok _ => apply ret_ok in H; destruct H as [H ?]
  end.

(** ** Nil *)

Lemma items_none U ol vf fuel : forall d s o s', all_items U ol vf fuel d o s = Ok (None, s') ->
  o = None /\ s' = s /\ forall n, In n d -> ~ sentence_item n.
Proof.
  induction d as [|n d IH]; intros s o s' E; cbn [all_items] in E.
  - apply ret_ok in E. destruct E as [-> ->]. repeat split. contradiction.
  - destruct (is_fragment n) eqn:F.
    + destruct (IH _ _ _ E) as (-> & -> & H). repeat split. intros m [<-|I]; [|apply H, I].
      intros [(j & st & dd & ->)|(f & t & w & l & r & ->)]; discriminate F.
    + destruct (is_sentence n); [|discriminate]. apply mbind_ok in E. destruct E as (x & s1 & E1 & E). destruct o as [o|].
      * apply mbind_ok in E. destruct E as (z & s2 & E2 & E). destruct (IH _ _ _ E) as (H & _). discriminate.
      * destruct (IH _ _ _ E) as (H & _). discriminate.
Qed.
Lemma items_some U ol vf fuel : forall d s o r s', all_items U ol vf fuel d o s = Ok (Some r, s') ->
  o = None -> has_sentence d.
Proof.
  induction d as [|n d IH]; intros s o r s' E O; cbn [all_items] in E.
  - apply ret_ok in E. destruct E as [E _]. congruence.
  - destruct (is_fragment n) eqn:F.
    + destruct (IH _ _ _ _ E O) as (m & I & M). exists m. split; [right; exact I|exact M].
    + destruct (is_sentence n) eqn:S; [|discriminate]. exists n. split; [left; reflexivity|].
      destruct n; try discriminate S; [left; eauto|]. destruct k; try discriminate S. right. eauto 6.
Qed.
Lemma bind_all_some vf : forall l r s o s', bind_all vf l (Some r) s = Ok (o, s') -> o <> None.
Proof.
  induction l as [|b l IH]; intros r s o s' E; cbn [bind_all] in E.
  - apply ret_ok in E. destruct E as [<- _]. discriminate.
  - apply mbind_ok in E. destruct E as (x & s1 & _ & E). exact (IH _ _ _ _ E).
Qed.

Theorem interpret_nil U ol fuel d o : interpret U ol fuel d = Ok o -> (o = None <-> ~ has_sentence d).
Proof.
  unfold interpret. destruct (discourse U ol fuel fuel d st0) as [[x s]| |] eqn:E; cbn [bind]; try discriminate. intros H.
  unfold discourse in E. apply mbind_ok in E. destruct E as (stmt & s1 & E1 & E).
  apply mbind_ok in E. destruct E as (the & s2 & E2 & E). injection E2 as <- <-. destruct stmt as [r|].
  - assert (S := items_some _ _ _ _ _ _ _ _ _ E1 eq_refl). apply bind_all_some in E. destruct x as [y|]; [|congruence].
    destruct (simplify_statement fuel y (s_heap s)); cbn in H; try discriminate. injection H as <-. split; [discriminate|contradiction].
  - destruct (items_none _ _ _ _ _ _ _ _ E1) as (_ & -> & S). cbn in E. apply ret_ok in E. destruct E as [<- _].
    injection H as <-. split; [|reflexivity]. intros _ (n & I & N). exact (S n I N).
Qed.

(** A discourse of fragments only is always interpreted, as nil. *)
Theorem interpret_fragments U ol fuel d : (forall n, In n d -> is_fragment n = true) -> interpret U ol fuel d = Ok None.
Proof.
  intros F. unfold interpret, discourse. assert (E : forall o s, all_items U ol fuel fuel d o s = Ok (o, s)).
  { induction d as [|n d IH]; intros o s; cbn [all_items]; [reflexivity|]. rewrite (F n (or_introl eq_refl)). apply IH.
    intros m M. apply F. right; exact M. }
  unfold mbind at 1. rewrite E. reflexivity.
Qed.

(** ** The slice of terms *)

Section Terms.
Variables (U : unicode) (ol : list (N * N)) (vf : nat).

Definition plain (ts : list node) : Prop := Forall (fun t => ~ connected_term U t) ts.

Definition same_terms (fuel : nat) : Prop :=
  (forall a st bi ts s z ts' s', run U ol vf fuel _ (KPrenex a st bi ts) s = Ok (z, ts', s') -> plain ts -> ts' = ts) /\
  (forall n a st bi ts s z ts' s', run U ol vf fuel _ (KPreposition n (ATail a st bi ts)) s = Ok (z, ts', s') -> plain ts -> ts' = ts) /\
  (forall p a st bi ts n s z ts' s', run U ol vf fuel _ (KPredPreposition p (ATail a st bi ts) n) s = Ok (z, ts', s') -> plain ts -> ts' = ts).

Lemma case_ok {A} self n u (one : option ref -> ref -> Interp.M A) (two : word -> node -> node -> Interp.M A) s v s' :
  argument_case U self n u one two s = Ok (v, s') ->
  (exists b a s1, one b a s1 = Ok (v, s') /\ ~ connected_argument U n) \/
  (exists f t w l r, n = NCoP CArgument f t w l r /\ has_text U w "roi" = false /\ two w l r s = Ok (v, s')).
Proof.
  intros E. unfold argument_case in E. destruct n; try discriminate.
  - minv E. left. eexists _, _, _. split; [exact E|]. intros (? & ? & ? & ? & ? & X & _). discriminate.
  - destruct k; try discriminate. destruct (has_text U ru "roi") eqn:R.
    + minv E. left. eexists _, _, _. split; [exact E|]. intros (? & ? & ? & ? & ? & X & Y). injection X as <- <- <- <- <-. congruence.
    + right. eauto 10.
Qed.

Ltac fin E IH1 IH2 IH3 :=
  repeat first [minv E | match type of E with (if ?b then _ else _) _ = Ok _ => destruct b end];
  unfold with_terms in *;
  repeat match goal with
         | H : run _ _ _ _ _ (KPrenex _ _ _ _) _ = Ok _ |- _ => apply IH1 in H; [subst|assumption]
         | H : run _ _ _ _ _ (KPreposition _ (ATail _ _ _ _)) _ = Ok _ |- _ => apply IH2 in H; [subst|assumption]
         | H : run _ _ _ _ _ (KPredPreposition _ (ATail _ _ _ _) _) _ = Ok _ |- _ => apply IH3 in H; [subst|assumption]
         end;
  congruence.

Lemma same_terms_all : forall fuel, same_terms fuel.
Proof.
  induction fuel as [|f (IH1 & IH2 & IH3)]; [repeat split; intros; discriminate|]. repeat split.
  - intros a st bi ts s z ts' s' E P. cbn [run body] in E. unfold prenex_statement in E.
    apply with_vars_ok in E. destruct E as (s1 & E & _). destruct ts as [|t rest].
    { minv E. minv E. congruence. }
    inversion P as [|? ? Pt Pr]; subst.
    assert (PL : forall go m, t = NLinked go m -> ~ connected_argument U m).
    { intros go m -> C. apply Pt. right. eauto. }
    assert (PA : ~ connected_argument U t) by (intros C; apply Pt; left; exact C).
    destruct t; try discriminate.
    + (* linked *)
      apply case_ok in E. destruct E as [(b & x & s2 & E & _)|(f0 & t0 & w & l & r & -> & R & E)]; [fin E IH1 IH2 IH3|].
      elim (PL _ _ eq_refl). repeat eexists. exact R.
    + (* argument *) fin E IH1 IH2 IH3.
    + (* adverb *) fin E IH1 IH2 IH3.
    + (* preposition *) fin E IH1 IH2 IH3.
    + destruct k; try discriminate.
      * (* term set *) repeat match type of E with (match ?x with _ => _ end) _ = Ok _ => is_var x; destruct x; try discriminate end. fin E IH1 IH2 IH3.
      * (* argument *) destruct (has_text U ru "roi") eqn:R; [|elim PA; repeat eexists; exact R]. fin E IH1 IH2 IH3.
      * fin E IH1 IH2 IH3.
      * fin E IH1 IH2 IH3.
  - intros n a st bi ts s z ts' s' E P. cbn [run body] in E. unfold do_preposition in E.
    apply with_vars_ok in E. destruct E as (s1 & E & _). destruct n; try discriminate.
    + eapply IH3; eassumption.
    + destruct k; try discriminate. fin E IH1 IH2 IH3.
  - intros p a st bi ts n s z ts' s' E P. cbn [run body] in E. unfold pred_preposition in E.
    apply with_vars_ok in E. destruct E as (s1 & E & _). apply case_ok in E.
    destruct E as [(b & x & s2 & E & _)|(f0 & t & w & l & r & -> & R & E)]; fin E IH1 IH2 IH3.
Qed.

(** Only the first term is changed if it alone is connected. *)
Lemma same_rest : forall fuel a st bi t rest s z ts' s',
  run U ol vf fuel _ (KPrenex a st bi (t :: rest)) s = Ok (z, ts', s') -> plain rest -> exists t', ts' = t' :: rest.
Proof.
  induction fuel as [|f IH]; intros a st bi t rest s z ts' s' E P; [discriminate|].
  assert (D : plain [t] \/ (exists f0 t0 w l r, t = NCoP CArgument f0 t0 w l r /\ has_text U w "roi" = false) \/
              (exists go f0 t0 w l r, t = NLinked go (NCoP CArgument f0 t0 w l r) /\ has_text U w "roi" = false)).
  { destruct t; try (left; repeat constructor; intros [(? & ? & ? & ? & ? & X & _)|(? & ? & X & _)]; discriminate).
    - destruct t; try (left; repeat constructor; intros [(? & ? & ? & ? & ? & X & _)|(? & ? & X & (? & ? & ? & ? & ? & Y & _))]; [discriminate|injection X as <- <-; discriminate]).
      destruct k; try (left; repeat constructor; intros [(? & ? & ? & ? & ? & X & _)|(? & ? & X & (? & ? & ? & ? & ? & Y & _))]; [discriminate|injection X as <- <-; discriminate]).
      destruct (has_text U ru "roi") eqn:R; [|right; right; eauto 10].
      left; repeat constructor; intros [(? & ? & ? & ? & ? & X & _)|(? & ? & X & (? & ? & ? & ? & ? & Y & Z))]; [discriminate|].
      injection X as <- <-. injection Y as <- <- <- <- <-. congruence.
    - destruct k; try (left; repeat constructor; intros [(? & ? & ? & ? & ? & X & _)|(? & ? & X & _)]; discriminate).
      destruct (has_text U ru "roi") eqn:R; [|right; left; eauto 10].
      left; repeat constructor; intros [(? & ? & ? & ? & ? & X & Z)|(? & ? & X & _)]; [|discriminate].
      injection X as <- <- <- <- <-. congruence. }
  destruct D as [D|[(f0 & t0 & w & l & r & -> & R)|(go & f0 & t0 & w & l & r & -> & R)]].
  - exists t. eapply (proj1 (same_terms_all (S f))); [exact E|]. inversion D; subst. constructor; assumption.
  - cbn [run body] in E. unfold prenex_statement in E. apply with_vars_ok in E. destruct E as (s1 & E & _).
    rewrite R in E. minv E. minv E. minv E. minv E.
    apply assert_ok in E0, E1. destruct E0 as [-> ->], E1 as [-> ->].
    destruct (IH _ _ _ _ _ _ _ _ _ E3 P) as (t1 & ->). cbn [tl] in E. minv E.
    destruct (IH _ _ _ _ _ _ _ _ _ E0 P) as (t2 & ->). repeat minv E. exists t2. congruence.
  - cbn [run body] in E. unfold prenex_statement in E. apply with_vars_ok in E. destruct E as (s1 & E & _).
    unfold argument_case in E. rewrite R in E. minv E. minv E. minv E. minv E.
    apply assert_ok in E0, E1. destruct E0 as [-> ->], E1 as [-> ->].
    destruct (IH _ _ _ _ _ _ _ _ _ E3 P) as (t1 & ->). cbn [tl] in E. minv E.
    destruct (IH _ _ _ _ _ _ _ _ _ E0 P) as (t2 & ->). repeat minv E. exists t2. congruence.
Qed.

(** A connected argument followed by terms that are not connected arguments. *)
Theorem connected_distributes fuel a st bi f t w l r rest s z ts' s' :
  has_text U w "roi" = false -> plain rest ->
  run U ol vf (S fuel) _ (KPrenex a st bi (NCoP CArgument f t w l r :: rest)) s = Ok (z, ts', s') ->
  exists c x y tx ty s1 s2,
    connector U w = Ok c /\
    run U ol vf fuel _ (KPrenex a st bi (l :: rest)) s = Ok (x, tx, s1) /\
    run U ol vf fuel _ (KPrenex a st bi (r :: rest)) s1 = Ok (y, ty, s2) /\
    nth_error (s_heap s') z = Some (CConnection c x y) /\ s_heap s' = s_heap s2 ++ [CConnection c x y].
Proof.
  intros R P E. cbn [run body] in E. unfold prenex_statement in E. apply with_vars_ok in E. destruct E as (s9 & E & H9).
  rewrite R in E. minv E. minv E. minv E. minv E.
  apply assert_ok in E0, E1. destruct E0 as [-> ->], E1 as [-> ->].
  unfold lift in E2. destruct (connector U w) as [c| |] eqn:C; try discriminate. injection E2 as <- <-.
  destruct (same_rest _ _ _ _ _ _ _ _ _ _ E3 P) as (t1 & ->). cbn [tl] in E. minv E. minv E. minv E.
  injection E1 as <- <-. injection E as <- <-. subst s9. cbn in H9.
  exists c, r0, r1, (t1 :: rest), l0, s3, s0. repeat split; auto.
  rewrite H9, nth_error_app2, Nat.sub_diag by lia. reflexivity.
Qed.

(** The same for an argument with a linking word. *)
Theorem linked_distributes fuel a st bi go f t w l r rest s z ts' s' :
  has_text U w "roi" = false -> plain rest ->
  run U ol vf (S fuel) _ (KPrenex a st bi (NLinked go (NCoP CArgument f t w l r) :: rest)) s = Ok (z, ts', s') ->
  exists c x y tx ty s1 s2,
    connector U w = Ok c /\
    run U ol vf fuel _ (KPrenex a st bi (NLinked go l :: rest)) s = Ok (x, tx, s1) /\
    run U ol vf fuel _ (KPrenex a st bi (NLinked go r :: rest)) s1 = Ok (y, ty, s2) /\
    nth_error (s_heap s') z = Some (CConnection c x y) /\ s_heap s' = s_heap s2 ++ [CConnection c x y].
Proof.
  intros R P E. cbn [run body] in E. unfold prenex_statement in E. apply with_vars_ok in E. destruct E as (s9 & E & H9).
  unfold argument_case in E. rewrite R in E. minv E. minv E. minv E. minv E.
  apply assert_ok in E0, E1. destruct E0 as [-> ->], E1 as [-> ->].
  unfold lift in E2. destruct (connector U w) as [c| |] eqn:C; try discriminate. injection E2 as <- <-.
  destruct (same_rest _ _ _ _ _ _ _ _ _ _ E3 P) as (t1 & ->). cbn [tl] in E. minv E. minv E. minv E.
  injection E1 as <- <-. injection E as <- <-. subst s9. cbn in H9.
  exists c, r0, r1, (t1 :: rest), l0, s3, s0. repeat split; auto.
  rewrite H9, nth_error_app2, Nat.sub_diag by lia. reflexivity.
Qed.

(** The right operand of a connected argument of a preposition is not looked at. *)
Theorem right_operand_ignored fuel p a0 f t w l r r' s :
  has_text U w "roi" = false ->
  run U ol vf fuel _ (KPredPreposition p a0 (NCoP CArgument f t w l r)) s =
  run U ol vf fuel _ (KPredPreposition p a0 (NCoP CArgument f t w l r')) s.
Proof.
  intros R. destruct fuel as [|fuel]; [reflexivity|]. cbn [run body]. unfold pred_preposition, argument_case. rewrite R. reflexivity.
Qed.

End Terms.
