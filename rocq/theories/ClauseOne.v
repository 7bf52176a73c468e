(** A text with clauses has one meaning. *)

From Coq Require Import String NArith List Bool Arith Lia.
From Verif Require Import Base PegSyntax Ast Logic LogicWords LogicSpec ScopeSpec OrderFacts Meaning MeaningOne Clauses.
Import ListNotations.
Open Scope string_scope.
Open Scope list_scope.
Open Scope nat_scope.

Scheme states_min := Minimality for states Sort Prop
  with predicates_min := Minimality for predicates Sort Prop
  with front_min := Minimality for front Sort Prop
  with po_says_min := Minimality for po_says Sort Prop
  with relates_min := Minimality for relates Sort Prop
  with relates_by_min := Minimality for relates_by Sort Prop
  with modifies_min := Minimality for modifies Sort Prop
  with refers_min := Minimality for refers Sort Prop
  with both_left_min := Minimality for both_left Sort Prop
  with both_right_min := Minimality for both_right Sort Prop
  with stands_min := Minimality for stands Sort Prop
  with limits_min := Minimality for limits Sort Prop
  with says_clause_min := Minimality for says_clause Sort Prop.
Combined Scheme clauses_min from states_min, predicates_min, front_min, po_says_min, relates_min, relates_by_min, modifies_min, refers_min, both_left_min, both_right_min, stands_min, limits_min, says_clause_min.

Section One.
Variable U : unicode.
Variable ol : list (N * N).

Definition one_arg (n : node) : bool :=
  match n with NPredArg _ _ _ _ => true | NCoP CArgument _ _ ru _ _ => has_text U ru "roi" | _ => false end.
Lemma refers_shape g t n b v g' t' : refers U ol g t n b v g' t' -> one_arg n = true.
Proof. intros H. destruct H; [reflexivity|assumption]. Qed.
Lemma arg_prep n : one_arg n = true -> is_prep n = true -> False.
Proof. destruct n; try discriminate. destruct k; discriminate. Qed.
Lemma arg_adverb n : one_arg n = true -> is_adverb n = true -> False.
Proof. destruct n; try discriminate. destruct k; discriminate. Qed.
Lemma prep_adverb n : is_prep n = true -> is_adverb n = true -> False.
Proof. destruct n; try discriminate. destruct k; discriminate. Qed.

Ltac off :=
  repeat match goal with
  | H : refers _ _ _ _ ?n _ _ _ _ |- _ => match goal with K : one_arg n = true |- _ => fail 1 | _ => pose proof (refers_shape _ _ _ _ _ _ _ H) end
  end; cbn [one_arg is_prep is_adverb] in *; exfalso; try congruence;
  match goal with
  | H : one_arg ?n = true, K : is_prep ?n = true |- _ => exact (arg_prep _ H K)
  | H : one_arg ?n = true, K : is_adverb ?n = true |- _ => exact (arg_adverb _ H K)
  | H : is_prep ?n = true, K : is_adverb ?n = true |- _ => exact (prep_adverb _ H K)
  end.
Ltac same1 := match goal with
  | H : ?x = Some _, H' : ?x = Some _ |- _ => rewrite H in H'; injection H' as; subst
  | H : ?x = (_, _), H' : ?x = (_, _) |- _ => rewrite H in H'; injection H' as; subst
  | H : placed ?a _, H' : placed ?a _ |- _ => pose proof (placed_one _ _ _ H' H); subst; clear H'
  | IH : (forall F t', states _ _ ?g ?t ?a ?n F t' -> _), H : states _ _ ?g ?t ?a ?n _ _ |- _ => apply IH in H; destruct H; subst
  | IH : (forall F t', predicates _ _ ?g ?t ?n F t' -> _), H : predicates _ _ ?g ?t ?n _ _ |- _ => apply IH in H; destruct H; subst
  | IH : (forall F ts t', front _ _ ?g ?t ?a ?n ?k ?l F ts t' -> _), H : front _ _ ?g ?t ?a ?n ?k ?l _ _ _ |- _ => apply IH in H; destruct H as (? & ? & ?); subst
  | IH : (forall F t', po_says _ _ ?g ?t ?s ?x ?n F t' -> _), H : po_says _ _ ?g ?t ?s ?x ?n _ _ |- _ => apply IH in H; destruct H; subst
  | IH : (forall F ts t', relates _ _ ?g ?t ?n ?a F ts t' -> _), H : relates _ _ ?g ?t ?n ?a _ _ _ |- _ => apply IH in H; destruct H as (? & ? & ?); subst
  | IH : (forall F ts t', relates_by _ _ ?g ?t ?p ?a ?n F ts t' -> _), H : relates_by _ _ ?g ?t ?p ?a ?n _ _ _ |- _ => apply IH in H; destruct H as (? & ? & ?); subst
  | IH : (forall F t', modifies _ _ ?g ?t ?n ?x F t' -> _), H : modifies _ _ ?g ?t ?n ?x _ _ |- _ => apply IH in H; destruct H; subst
  | IH : (forall b x g' t', refers _ _ ?g ?t ?n b x g' t' -> _), H : refers _ _ ?g ?t ?n _ _ _ _ |- _ => apply IH in H; destruct H as (? & ? & ? & ?); subst
  | IH : (forall F g' t', both_left _ _ ?g ?t ?x ?l ?r F g' t' -> _), H : both_left _ _ ?g ?t ?x ?l ?r _ _ _ |- _ => apply IH in H; destruct H as (? & ? & ?); subst
  | IH : (forall F g' t', both_right _ _ ?g ?t ?x ?l ?r F g' t' -> _), H : both_right _ _ ?g ?t ?x ?l ?r _ _ _ |- _ => apply IH in H; destruct H as (? & ? & ?); subst
  | IH : (forall b x g' t', stands _ _ ?g ?t ?f ?q ?p ?r b x g' t' -> _), H : stands _ _ ?g ?t ?f ?q ?p ?r _ _ _ _ |- _ => apply IH in H; destruct H as (? & ? & ? & ?); subst
  | IH : (forall R t', limits _ _ ?g ?t ?x ?n R t' -> _), H : limits _ _ ?g ?t ?x ?n _ _ |- _ => apply IH in H; destruct H; subst
  | IH : (forall F t', says_clause _ _ ?g ?t ?n F t' -> _), H : says_clause _ _ ?g ?t ?n _ _ |- _ => apply IH in H; destruct H; subst
  end.
Ltac same := repeat same1.

Theorem parts_one :
  (forall g t a n F t', states U ol g t a n F t' -> forall F2 t2, states U ol g t a n F2 t2 -> F2 = F /\ t2 = t') /\
  (forall g t n P t', predicates U ol g t n P t' -> forall P2 t2, predicates U ol g t n P2 t2 -> P2 = P /\ t2 = t') /\
  (forall g t a n k l F ts t', front U ol g t a n k l F ts t' -> forall F2 ts2 t2, front U ol g t a n k l F2 ts2 t2 -> F2 = F /\ ts2 = ts /\ t2 = t') /\
  (forall g t s x n F t', po_says U ol g t s x n F t' -> forall F2 t2, po_says U ol g t s x n F2 t2 -> F2 = F /\ t2 = t') /\
  (forall g t n a F ts t', relates U ol g t n a F ts t' -> forall F2 ts2 t2, relates U ol g t n a F2 ts2 t2 -> F2 = F /\ ts2 = ts /\ t2 = t') /\
  (forall g t p a n F ts t', relates_by U ol g t p a n F ts t' -> forall F2 ts2 t2, relates_by U ol g t p a n F2 ts2 t2 -> F2 = F /\ ts2 = ts /\ t2 = t') /\
  (forall g t n x F t', modifies U ol g t n x F t' -> forall F2 t2, modifies U ol g t n x F2 t2 -> F2 = F /\ t2 = t') /\
  (forall g t n b x g' t', refers U ol g t n b x g' t' -> forall b2 x2 g2 t2, refers U ol g t n b2 x2 g2 t2 -> b2 = b /\ x2 = x /\ g2 = g' /\ t2 = t') /\
  (forall g t x l r F g' t', both_left U ol g t x l r F g' t' -> forall F2 g2 t2, both_left U ol g t x l r F2 g2 t2 -> F2 = F /\ g2 = g' /\ t2 = t') /\
  (forall g t x v r F g' t', both_right U ol g t x v r F g' t' -> forall F2 g2 t2, both_right U ol g t x v r F2 g2 t2 -> F2 = F /\ g2 = g' /\ t2 = t') /\
  (forall g t f q p r b x g' t', stands U ol g t f q p r b x g' t' -> forall b2 x2 g2 t2, stands U ol g t f q p r b2 x2 g2 t2 -> b2 = b /\ x2 = x /\ g2 = g' /\ t2 = t') /\
  (forall g t x n R t', limits U ol g t x n R t' -> forall R2 t2, limits U ol g t x n R2 t2 -> R2 = R /\ t2 = t') /\
  (forall g t n F t', says_clause U ol g t n F t' -> forall F2 t2, says_clause U ol g t n F2 t2 -> F2 = F /\ t2 = t').
Proof.
  apply clauses_min; intros;
    match goal with H : _ |- (_ = _) /\ _ => first
      [ match type of H with states _ _ _ _ _ _ ?F _ => match goal with |- F = _ /\ _ => inversion H end end
      | match type of H with predicates _ _ _ _ _ ?F _ => match goal with |- F = _ /\ _ => inversion H end end
      | match type of H with front _ _ _ _ _ _ _ _ ?F _ _ => match goal with |- F = _ /\ _ => inversion H end end
      | match type of H with po_says _ _ _ _ _ _ _ ?F _ => match goal with |- F = _ /\ _ => inversion H end end
      | match type of H with relates _ _ _ _ _ _ ?F _ _ => match goal with |- F = _ /\ _ => inversion H end end
      | match type of H with relates_by _ _ _ _ _ _ _ ?F _ _ => match goal with |- F = _ /\ _ => inversion H end end
      | match type of H with modifies _ _ _ _ _ _ ?F _ => match goal with |- F = _ /\ _ => inversion H end end
      | match type of H with refers _ _ _ _ _ ?F _ _ _ => match goal with |- F = _ /\ _ => inversion H end end
      | match type of H with both_left _ _ _ _ _ _ _ ?F _ _ => match goal with |- F = _ /\ _ => inversion H end end
      | match type of H with both_right _ _ _ _ _ _ _ ?F _ _ => match goal with |- F = _ /\ _ => inversion H end end
      | match type of H with stands _ _ _ _ _ _ _ _ ?F _ _ _ => match goal with |- F = _ /\ _ => inversion H end end
      | match type of H with limits _ _ _ _ _ _ ?F _ => match goal with |- F = _ /\ _ => inversion H end end
      | match type of H with says_clause _ _ _ _ _ ?F _ => match goal with |- F = _ /\ _ => inversion H end end] end;
    subst; try (exfalso; congruence); try solve [off].
  all: same; try (repeat split; reflexivity); try (exfalso; congruence).
  - match goal with E : Some _ = Some _ |- _ => injection E as -> end. repeat split; reflexivity.
  - match goal with E : _ \/ _ |- _ => destruct E; congruence end.
  - match goal with E : _ \/ _ |- _ => destruct E; congruence end.
Qed.

Lemma sentence_one : forall t n F t', says_sentence U ol t n F t' -> forall F2 t2, says_sentence U ol t n F2 t2 -> F2 = F /\ t2 = t'.
Proof.
  induction 1 as [t je st da F t' S|t f m ru l r F G t1 t2 T Sl IHl Sr IHr]; intros F2 t3 H; inversion H; subst.
  - destruct parts_one as [P _]. eapply P; eassumption.
  - match goal with K : says_sentence _ _ t l _ _ |- _ => apply IHl in K; destruct K as [-> ->] end.
    match goal with K : says_sentence _ _ t1 r _ _ |- _ => apply IHr in K; destruct K as [-> ->] end. auto.
Qed.
Lemma items_one : forall t o d o' t', says_items U ol t o d o' t' -> forall o2 t2, says_items U ol t o d o2 t2 -> o2 = o' /\ t2 = t'.
Proof.
  induction 1 as [t o|t o n d o' t' N I IH|t o n d F t1 o' t' N S I IH]; intros o2 t2 H; inversion H; subst; try contradiction; auto.
  match goal with K : says_sentence _ _ t n _ _ |- _ => destruct (sentence_one _ _ _ _ S _ _ K) as [-> ->] end. apply IH. assumption.
Qed.
Theorem conveys_one d F F' : conveys U ol d F -> conveys U ol d F' -> F = F'.
Proof.
  intros (G & t & I & ->) (G' & t' & I' & ->). destruct (items_one _ _ _ _ _ I _ _ I') as [E ->]. injection E as ->. reflexivity.
Qed.
End One.
