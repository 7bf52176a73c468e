(** A text has one meaning. *)

From Coq Require Import String NArith List Bool Arith Lia.
From Verif Require Import Base PegSyntax Ast Logic LogicWords LogicSpec ScopeSpec OrderFacts Meaning MeaningNames.
Import ListNotations.
Open Scope string_scope.
Open Scope list_scope.
Open Scope nat_scope.

Lemma slots_one (a : list (thing * nat)) : forall (l l' : list (option thing)) i, length l = length l' ->
  (forall p, p < length l -> is_linked a (i + p) = true -> nth_error l p = nth_error l' p) ->
  map snd (filter (fun ix => negb (is_linked a (fst ix))) (combine (seq i (length l)) l)) =
  map snd (filter (fun ix => negb (is_linked a (fst ix))) (combine (seq i (length l')) l')) -> l = l'.
Proof.
  induction l as [|x l IH]; intros [|x' l'] i L K E; try discriminate; [reflexivity|]. cbn [length seq combine filter fst] in E. injection L as L.
  assert (K' : forall p, p < length l -> is_linked a (S i + p) = true -> nth_error l p = nth_error l' p).
  { intros p Lp Lk. apply (K (S p)); [cbn; lia|]. replace (i + S p) with (S i + p) by lia. exact Lk. }
  destruct (is_linked a i) eqn:Lk; cbn [negb map snd] in E.
  - assert (X := K 0 ltac:(cbn; lia)). rewrite Nat.add_0_r in X. specialize (X Lk). injection X as ->. f_equal. eapply IH; eassumption.
  - injection E as -> E. f_equal. eapply IH; eassumption.
Qed.

Lemma slots_length (a : list (thing * nat)) : forall (l l' : list (option thing)) i, length l = length l' ->
  length (filter (fun ix => negb (is_linked a (fst ix))) (combine (seq i (length l)) l)) =
  length (filter (fun ix => negb (is_linked a (fst ix))) (combine (seq i (length l')) l')).
Proof.
  induction l as [|x l IH]; intros [|x' l'] i L; try discriminate; [reflexivity|]. injection L as L. cbn [length seq combine filter fst].
  destruct (is_linked a i); cbn [negb length]; [|f_equal]; apply IH, L.
Qed.

Lemma linked_some_at (a : list (thing * nat)) p : is_linked a p = true -> exists x, linked_at a p x.
Proof.
  induction a as [|[z q] a IH]; [discriminate|]. intros Lk. unfold is_linked in Lk. cbn [existsb snd] in Lk.
  destruct (existsb (fun y => snd y =? S p) a) eqn:R.
  - destruct (IH R) as (w & pre & post & -> & D). exists w, ((z, q) :: pre), post. auto.
  - rewrite orb_false_r in Lk. apply Nat.eqb_eq in Lk. subst q. exists z, [], a. split; [reflexivity|]. intros w K.
    assert (T : existsb (fun y => snd y =? S p) a = true) by (apply existsb_exists; exists (w, S p); split; [exact K|apply Nat.eqb_refl]). congruence.
Qed.

Lemma placed_one a l l' : placed a l -> placed a l' -> l = l'.
Proof.
  intros (L & K & k & E) (L' & K' & k' & E'). assert (Le : length l = length l') by congruence.
  apply (slots_one a l l' 0 Le).
  - intros p _ Lk. cbn [plus] in Lk. apply linked_some_at in Lk. destruct Lk as (x & Lk). rewrite (K _ _ Lk), (K' _ _ Lk). reflexivity.
  - unfold free_slots in E, E'. assert (X := slots_length a l l' 0 Le). rewrite E, E'. do 2 f_equal.
    assert (Y := f_equal (@length _) E). assert (Y' := f_equal (@length _) E'). rewrite map_length, app_length, repeat_length in Y, Y'. lia.
Qed.

Section One.
Variable U : unicode.
Variable ol : list (N * N).

Ltac same :=
  repeat match goal with
  | H : ?x = Some _, H' : ?x = Some _ |- _ => rewrite H in H'; injection H' as; subst
  | H : ?x = (_, _), H' : ?x = (_, _) |- _ => rewrite H in H'; injection H' as; subst
  | H : placed ?a _, H' : placed ?a _ |- _ => pose proof (placed_one _ _ _ H' H); subst; clear H'
  | IH : (forall F t', statement _ _ ?g ?t ?a ?n F t' -> _), H : statement _ _ ?g ?t ?a ?n _ _ |- _ => apply IH in H; destruct H; subst
  | IH : (forall F ts t', terms _ _ ?g ?t ?a ?n ?k ?l F ts t' -> _), H : terms _ _ ?g ?t ?a ?n ?k ?l _ _ _ |- _ => apply IH in H; destruct H as (? & ? & ?); subst
  | IH : (forall b x g' t', argument _ _ ?g ?t ?f ?q ?p ?r b x g' t' -> _), H : argument _ _ ?g ?t ?f ?q ?p ?r _ _ _ _ |- _ => apply IH in H; destruct H as (? & ? & ? & ?); subst
  | IH : (forall R t', relative _ _ ?g ?t ?x ?n R t' -> _), H : relative _ _ ?g ?t ?x ?n _ _ |- _ => apply IH in H; destruct H; subst
  | IH : (forall F t', clause _ _ ?g ?t ?n F t' -> _), H : clause _ _ ?g ?t ?n _ _ |- _ => apply IH in H; destruct H; subst
  end.

Theorem parts_one :
  (forall g t a n F t', statement U ol g t a n F t' -> forall F2 t2, statement U ol g t a n F2 t2 -> F2 = F /\ t2 = t') /\
  (forall g t a n k l F ts t', terms U ol g t a n k l F ts t' -> forall F2 ts2 t2, terms U ol g t a n k l F2 ts2 t2 -> F2 = F /\ ts2 = ts /\ t2 = t') /\
  (forall g t f q p r b x g' t', argument U ol g t f q p r b x g' t' -> forall b2 x2 g2 t2, argument U ol g t f q p r b2 x2 g2 t2 -> b2 = b /\ x2 = x /\ g2 = g' /\ t2 = t') /\
  (forall g t x n R t', relative U ol g t x n R t' -> forall R2 t2, relative U ol g t x n R2 t2 -> R2 = R /\ t2 = t') /\
  (forall g t n F t', clause U ol g t n F t' -> forall F2 t2, clause U ol g t n F2 t2 -> F2 = F /\ t2 = t').
Proof.
  apply meaning_min; intros;
    match goal with H : _ |- _ => first
      [ match type of H with statement _ _ _ _ _ _ _ _ => inversion H end
      | match type of H with terms _ _ _ _ _ _ _ _ _ _ _ => inversion H end
      | match type of H with argument _ _ _ _ _ _ _ _ _ _ _ _ => inversion H end
      | match type of H with relative _ _ _ _ _ _ _ _ => inversion H end
      | match type of H with clause _ _ _ _ _ _ _ => inversion H end] end; subst; try congruence; try (intuition congruence).
  all: same; try (repeat split; reflexivity).
  repeat split; congruence.
Qed.

Lemma sentence_one : forall t n F t', sentence U ol t n F t' -> forall F2 t2, sentence U ol t n F2 t2 -> F2 = F /\ t2 = t'.
Proof.
  induction 1 as [t je st da F t' S|t f m ru l r F G t1 t2 T Sl IHl Sr IHr]; intros F2 t3 H; inversion H; subst.
  - destruct parts_one as [P _]. eapply P; eassumption.
  - match goal with K : sentence _ _ t l _ _ |- _ => apply IHl in K; destruct K as [-> ->] end.
    match goal with K : sentence _ _ t1 r _ _ |- _ => apply IHr in K; destruct K as [-> ->] end. auto.
Qed.

Lemma items_one : forall t o d o' t', items U ol t o d o' t' -> forall o2 t2, items U ol t o d o2 t2 -> o2 = o' /\ t2 = t'.
Proof.
  induction 1 as [t o|t o n d o' t' N I IH|t o n d F t1 o' t' N S I IH]; intros o2 t2 H; inversion H; subst; try contradiction; auto.
  match goal with K : sentence _ _ t n _ _ |- _ => destruct (sentence_one _ _ _ _ S _ _ K) as [-> ->] end. apply IH. assumption.
Qed.

Theorem means_one d F F' : means U ol d F -> means U ol d F' -> F = F'.
Proof.
  intros (G & t & I & ->) (G' & t' & I' & ->). destruct (items_one _ _ _ _ _ I _ _ I') as [E ->]. injection E as ->. reflexivity.
Qed.

End One.
