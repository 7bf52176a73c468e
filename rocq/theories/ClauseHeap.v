(** Formulas and the heap. *)

From Coq Require Import String NArith List Bool Arith Lia.
From Verif Require Simplify.
From Verif Require Import Base PegSyntax Ast Logic LogicWords LogicSpec ScopeSpec Interp OrderFacts SeqFacts TermFacts ScopeFacts ScopeInterp Meaning MeaningFacts Clauses.
Import ListNotations.
Open Scope string_scope.
Open Scope list_scope.
Open Scope nat_scope.

Scheme form_mut := Induction for form Sort Prop
  with prop_mut := Induction for prop Sort Prop
  with term_mut := Induction for term Sort Prop
  with row_mut := Induction for row Sort Prop.
Combined Scheme forms_ind from form_mut, prop_mut, term_mut, row_mut.

(** ** Trees whose numbers are the variables

    [at_f h X r F]: the tree at [r] is [F]; [X] lists the nodes of the tree that can change. *)
Inductive at_f (h : heap) : list ref -> ref -> form -> Prop :=
  | AtSays r x xs p l X Y : nth_error h r = Some (CPredication x xs) -> at_p h X x p -> at_r h Y xs l -> at_f h (r :: X ++ Y) r (Says p l)
  | AtJoined r c x y F G X Y : nth_error h r = Some (CConnection c x y) -> at_f h X x F -> at_f h Y y G -> at_f h (r :: X ++ Y) r (Joined c F G)
  | AtBinds r q n f s G X : nth_error h r = Some (CBinding q n f None (Some s)) -> at_f h X s G -> at_f h (r :: X) r (Binds q n f G)
  | AtLimits r q n f x s R G X Y : nth_error h r = Some (CBinding q n f (Some x) (Some s)) -> at_f h X x R -> at_f h Y s G -> at_f h (r :: X ++ Y) r (Limits q n f R G)
with at_p (h : heap) : list ref -> ref -> prop -> Prop :=
  | AtSimple r p : rprop h r p -> at_p h [] r (Simple p)
  | AtAbstract r x F X : nth_error h r = Some (CAbstraction x) -> at_f h X x F -> at_p h (r :: X) r (Abstract F)
with at_t (h : heap) : list ref -> ref -> term -> Prop :=
  | AtVar r v : rthing h r v -> at_t h [] r (Var v)
  | AtQuoted r s f : nth_error h r = Some (CQuote s f) -> at_t h [] r (Quoted s f)
  | AtThat r x F X : nth_error h r = Some (CAbstraction x) -> at_f h X x F -> at_t h (r :: X) r (That F)
  | AtSeveral r xs l X : nth_error h r = Some (CPlurality xs) -> at_r h X xs l -> at_t h (r :: X) r (Several l)
with at_r (h : heap) : list ref -> list (option ref) -> row -> Prop :=
  | AtNil : at_r h [] [] Nil
  | AtGap xs l X : at_r h X xs l -> at_r h X (None :: xs) (Gap l)
  | AtItem x xs a l X Y : at_t h X x a -> at_r h Y xs l -> at_r h (X ++ Y) (Some x :: xs) (Item a l).
Scheme at_f_mut := Minimality for at_f Sort Prop
  with at_p_mut := Minimality for at_p Sort Prop
  with at_t_mut := Minimality for at_t Sort Prop
  with at_r_mut := Minimality for at_r Sort Prop.
Combined Scheme at_ind from at_f_mut, at_p_mut, at_t_mut, at_r_mut.

Definition mutable (c : cell) : bool :=
  match c with CPredication _ _ | CConnection _ _ _ | CBinding _ _ _ _ _ | CAbstraction _ | CPlurality _ => true | _ => false end.
Definition mut_at (h : heap) (i : ref) : Prop := exists c, nth_error h i = Some c /\ mutable c = true.

Definition older (c : cell) : list ref := match c with CConnection _ x y | CSerial x y => [x; y] | _ => [] end.

Lemma at_mut h :
  (forall X r F, at_f h X r F -> In r X /\ forall i, In i X -> mut_at h i) /\
  (forall X r F, at_p h X r F -> forall i, In i X -> mut_at h i) /\
  (forall X r F, at_t h X r F -> forall i, In i X -> mut_at h i) /\
  (forall X r F, at_r h X r F -> forall i, In i X -> mut_at h i).
Proof.
  apply at_ind; intros; try (split; [left; reflexivity|intros i I]);
    repeat match goal with
    | H : _ /\ _ |- _ => destruct H
    | H : In _ (_ ++ _) |- _ => apply in_app_or in H; destruct H
    | H : In _ (_ :: _) |- _ => destruct H; [subst|]
    | H : In _ [] |- _ => destruct H
    end; auto; (eexists; split; [eassumption|reflexivity]).
Qed.
Lemma at_root h X r F : at_f h X r F -> In r X.
Proof. intros H. apply (proj1 (at_mut h) _ _ _ H). Qed.
Lemma at_mutf h X r F i : at_f h X r F -> In i X -> mut_at h i.
Proof. intros H. apply (proj1 (at_mut h) _ _ _ H). Qed.
Lemma at_mutt h X r F i : at_t h X r F -> In i X -> mut_at h i.
Proof. intros H. apply (proj1 (proj2 (proj2 (at_mut h))) _ _ _ H). Qed.
Lemma at_mutr h X r F i : at_r h X r F -> In i X -> mut_at h i.
Proof. intros H. apply (proj2 (proj2 (proj2 (at_mut h))) _ _ _ H). Qed.
Lemma at_mutp h X r F i : at_p h X r F -> In i X -> mut_at h i.
Proof. intros H. apply (proj1 (proj2 (at_mut h)) _ _ _ H). Qed.
Lemma mut_lt h i : mut_at h i -> i < length h.
Proof. intros (c & E & _). eapply nth_lt, E. Qed.

(** ** Other heaps *)

(** The nodes in [X] are the same, those that never change too, and bindings keep their
    numbers. *)
Record keeps (h h' : heap) (Q : ref -> Prop) : Prop := Keeps {
  k_same : forall i c, nth_error h i = Some c -> Q i -> nth_error h' i = Some c;
  k_fixed : forall i c, nth_error h i = Some c -> mutable c = false -> nth_error h' i = Some c;
  k_num : forall d n, num h d n -> num h' d n }.
Section Keep.
Variables (h h' : heap) (Q : ref -> Prop).
Hypothesis K : keeps h h' Q.
Lemma keeps_thing r v : rthing h r v -> rthing h' r v.
Proof.
  intros H. destruct H; [econstructor 1; [eapply k_fixed; [exact K|eassumption|reflexivity]|eapply k_num; eassumption]|].
  constructor 2. eapply k_fixed; [exact K|eassumption|reflexivity].
Qed.
Lemma keeps_prop r p : rprop h r p -> rprop h' r p.
Proof.
  intros H. induction H; [constructor 1|constructor 2; apply keeps_thing; assumption|econstructor 3; [|eassumption|eassumption]];
    (eapply k_fixed; [exact K|eassumption|reflexivity]).
Qed.
Lemma keeps_at :
  (forall X r F, at_f h X r F -> (forall i, In i X -> Q i) -> at_f h' X r F) /\
  (forall X r F, at_p h X r F -> (forall i, In i X -> Q i) -> at_p h' X r F) /\
  (forall X r F, at_t h X r F -> (forall i, In i X -> Q i) -> at_t h' X r F) /\
  (forall X r F, at_r h X r F -> (forall i, In i X -> Q i) -> at_r h' X r F).
Proof.
  apply at_ind; intros; econstructor;
    first
      [ eapply k_same; [exact K|eassumption|]; match goal with H : forall i, In i _ -> Q i |- Q _ => apply H; left; reflexivity end
      | eapply k_fixed; [exact K|eassumption|reflexivity]
      | apply keeps_thing; assumption
      | apply keeps_prop; assumption
      | match goal with
        | H : _ -> at_f _ ?X ?r ?F |- at_f _ ?X ?r ?F => apply H; intros
        | H : _ -> at_p _ ?X ?r ?F |- at_p _ ?X ?r ?F => apply H; intros
        | H : _ -> at_t _ ?X ?r ?F |- at_t _ ?X ?r ?F => apply H; intros
        | H : _ -> at_r _ ?X ?r ?F |- at_r _ ?X ?r ?F => apply H; intros
        end;
        match goal with H : forall i, In i _ -> Q i |- Q _ => apply H; cbn; rewrite ?in_app_iff; tauto end ].
Qed.
End Keep.
Lemma keeps_f h h' (Q : ref -> Prop) X r F : keeps h h' Q -> at_f h X r F -> (forall i, In i X -> Q i) -> at_f h' X r F.
Proof. intros K. apply (proj1 (keeps_at h h' Q K)). Qed.
Lemma keeps_p h h' (Q : ref -> Prop) X r F : keeps h h' Q -> at_p h X r F -> (forall i, In i X -> Q i) -> at_p h' X r F.
Proof. intros K. apply (proj1 (proj2 (keeps_at h h' Q K))). Qed.
Lemma keeps_t h h' (Q : ref -> Prop) X r F : keeps h h' Q -> at_t h X r F -> (forall i, In i X -> Q i) -> at_t h' X r F.
Proof. intros K. apply (proj1 (proj2 (proj2 (keeps_at h h' Q K)))). Qed.
Lemma keeps_r h h' (Q : ref -> Prop) X r F : keeps h h' Q -> at_r h X r F -> (forall i, In i X -> Q i) -> at_r h' X r F.
Proof. intros K. apply (proj2 (proj2 (proj2 (keeps_at h h' Q K)))). Qed.

Lemma keeps_trans h1 h2 h3 (Q R : ref -> Prop) : keeps h1 h2 Q -> keeps h2 h3 R -> keeps h1 h3 (fun i => Q i /\ R i).
Proof. intros [A B C] [A' B' C']. split; [intros i c E [P S]; auto|intros i c E M; apply B'; auto|auto]. Qed.
Lemma keeps_weak h h' (Q R : ref -> Prop) : keeps h h' Q -> (forall i, R i -> Q i) -> keeps h h' R.
Proof. intros [A B C] W. split; auto. Qed.
Lemma keeps_grows h h' : grows h h' -> keeps h h' (fun _ => True).
Proof. intros G. split; auto. intros. eapply num_grows; eassumption. Qed.
Lemma grows_f h h' X r F : grows h h' -> at_f h X r F -> at_f h' X r F.
Proof. intros G H. eapply keeps_f; [apply keeps_grows, G|exact H|intros; exact I]. Qed.
Lemma grows_p h h' X r F : grows h h' -> at_p h X r F -> at_p h' X r F.
Proof. intros G H. eapply keeps_p; [apply keeps_grows, G|exact H|intros; exact I]. Qed.
Lemma grows_r h h' X r F : grows h h' -> at_r h X r F -> at_r h' X r F.
Proof. intros G H. eapply keeps_r; [apply keeps_grows, G|exact H|intros; exact I]. Qed.

Lemma nth_put {A} (h : list A) r c i d : nth_error (set_nth r c h) i = Some d -> nth_error h i = Some d \/ (i = r /\ d = c /\ r < length h).
Proof.
  destruct (Nat.lt_ge_cases r (length h)) as [L|L].
  - rewrite nth_set by exact L. destruct (Nat.eqb_spec i r) as [->|N]; intros E; [injection E as <-|]; auto.
  - assert (X : set_nth r c h = h); [|rewrite X; auto]. clear - L. revert r L. induction h as [|a h IH]; intros [|r] L; cbn in *; try reflexivity; try lia. rewrite IH by lia. reflexivity.
Qed.
(** A node that can change is replaced by one with the same number, if any. *)
Lemma keeps_put h r c c' : nth_error h r = Some c -> mutable c = true ->
  (forall q n f rs sc, c = CBinding q n f rs sc -> exists q' f' rs' sc', c' = CBinding q' n f' rs' sc') ->
  keeps h (set_nth r c' h) (fun i => i <> r).
Proof.
  intros E M B. assert (L := nth_lt _ _ _ E). split.
  - intros i d D N. rewrite set_nth_other by auto. exact D.
  - intros i d D N. rewrite set_nth_other; [exact D|]. intros ->. congruence.
  - intros d n (q & f & rs & sc & D). unfold num. rewrite nth_set by exact L. destruct (Nat.eqb_spec d r) as [->|N]; [|eauto 6].
    rewrite E in D. injection D as ->. destruct (B _ _ _ _ _ eq_refl) as (q' & f' & rs' & sc' & ->). eauto 6.
Qed.

(** ** Counting *)

Definition cnt (X : list ref) (i : ref) : nat := count_occ Nat.eq_dec X i.
Lemma cnt_app X Y i : cnt (X ++ Y) i = cnt X i + cnt Y i.
Proof. apply count_occ_app. Qed.
Lemma cnt_cons r X i : cnt (r :: X) i = (if r =? i then 1 else 0) + cnt X i.
Proof. unfold cnt. cbn. destruct (Nat.eq_dec r i) as [->|N]; [rewrite Nat.eqb_refl|apply Nat.eqb_neq in N; rewrite N]; reflexivity. Qed.
Lemma cnt_nil i : cnt [] i = 0.
Proof. reflexivity. Qed.
Lemma cnt_in X i : In i X <-> 0 < cnt X i.
Proof. apply count_occ_In. Qed.
Lemma cnt_not X i : ~ In i X <-> cnt X i = 0.
Proof. apply count_occ_not_In. Qed.
(** Each occurs once, and lies between [a] and [b]. *)
Definition fresh (a b : nat) (X : list ref) : Prop := forall i, cnt X i = 0 \/ (cnt X i = 1 /\ a <= i < b).
Lemma fresh_nodup a b X : fresh a b X -> NoDup X.
Proof. intros H. apply (NoDup_count_occ Nat.eq_dec). intros i. specialize (H i). unfold cnt in H. lia. Qed.
Ltac count i :=
  repeat match goal with H : fresh _ _ _ |- _ => pose proof (H i); revert H end; intros;
  repeat (progress rewrite ?cnt_app, ?cnt_cons, ?cnt_nil in *);
  repeat match goal with
  | |- context [?a =? ?b] => destruct (Nat.eqb_spec a b)
  | H : context [?a =? ?b] |- _ => destruct (Nat.eqb_spec a b)
  end; subst; try lia.
Ltac fresh_tac := let i := fresh "i" in intros i; count i.

(** ** What is visited *)

Lemma visit_inv h f r l c : visited h f r = Ok l -> nth_error h r = Some c -> exists f' v, flat_res (visited h f') (below c) = Ok v /\ l = r :: v.
Proof.
  destruct f as [|f]; [discriminate|]. cbn [visited]. intros E N. rewrite N in E. destruct (flat_res (visited h f) (below c)) as [v| |] eqn:Fl; cbn [bind] in E; try discriminate.
  injection E as <-. exists f, v. auto.
Qed.
Lemma flat_cons_inv h f a r v : flat_res (visited h f) (a :: r) = Ok v -> exists l m, visited h f a = Ok l /\ flat_res (visited h f) r = Ok m /\ v = l ++ m.
Proof.
  cbn [flat_res]. destruct (visited h f a) as [l| |]; cbn [bind]; try discriminate. destruct (flat_res (visited h f) r) as [m| |]; cbn [bind]; try discriminate.
  intros E. injection E as <-. exists l, m. auto.
Qed.
Lemma flat_nil_inv h f v : flat_res (visited h f) [] = Ok v -> v = [].
Proof. intros E. injection E as <-. reflexivity. Qed.

(** Bindings and bound variables in the order of a visit. *)
Definition event : Type := nat + nat.
Definition event_of (h : heap) (r : ref) : list event :=
  match nth_error h r with
  | Some (CBinding _ n _ _ _) => [inl n]
  | Some (CVariable n (Some _) _) => [inr n]
  | _ => []
  end.
Fixpoint events (F : form) : list event :=
  match F with
  | Says p l => events_p p ++ events_r l
  | Joined _ F G => events F ++ events G
  | Binds _ x _ G => inl x :: events G
  | Limits _ x _ R G => inl x :: events R ++ events G
  end
with events_p (p : prop) : list event :=
  match p with Simple p => map inr (of_property p) | Abstract F => events F end
with events_t (a : term) : list event :=
  match a with
  | Var v => map inr (of_thing v)
  | Quoted _ _ => []
  | That F => events F
  | Several l => events_r l
  end
with events_r (l : row) : list event :=
  match l with
  | Nil => []
  | Gap l => events_r l
  | Item a l => events_t a ++ events_r l
  end.

Ltac visit :=
  repeat match goal with
  | V : visited ?h _ ?r = Ok _, E : nth_error ?h ?r = Some _ |- _ =>
      let f := fresh "f" in let v := fresh "v" in let Fl := fresh "Fl" in
      destruct (visit_inv _ _ _ _ _ V E) as (f & v & Fl & ->); clear V; cbn [below olist app] in Fl
  | Fl : flat_res _ (_ :: _) = Ok _ |- _ =>
      let l := fresh "l" in let m := fresh "m" in let V := fresh "V" in let F2 := fresh "Fl" in
      destruct (flat_cons_inv _ _ _ _ _ Fl) as (l & m & V & F2 & ->); clear Fl
  | Fl : flat_res _ [] = Ok _ |- _ => apply flat_nil_inv in Fl; subst
  end.

Lemma visit_thing h (X : Type) (ev : ref -> list X) r v : rthing h r v -> forall f l, visited h f r = Ok l -> flat_map ev l = ev r.
Proof. intros H f l V. destruct H; visit; cbn; apply app_nil_r. Qed.
Lemma events_property h r p : rprop h r p -> forall f l, visited h f r = Ok l -> flat_map (event_of h) l = map inr (of_property p).
Proof.
  intros H. induction H as [r s E|r v T|r x y p q E Hp IHp Hq IHq]; intros f l V; cbn [of_property].
  - visit. cbn. unfold event_of. rewrite E. reflexivity.
  - rewrite (visit_thing _ _ _ _ _ T _ _ V). destruct T as [r n d fo E N|r n E]; unfold event_of; rewrite E; reflexivity.
  - visit. cbn [flat_map]. unfold event_of at 1. rewrite E. cbn. rewrite app_nil_r, flat_map_app, map_app. f_equal; eauto.
Qed.
Lemma events_at h :
  (forall X r F, at_f h X r F -> forall f l, visited h f r = Ok l -> flat_map (event_of h) l = events F) /\
  (forall X r F, at_p h X r F -> forall f l, visited h f r = Ok l -> flat_map (event_of h) l = events_p F) /\
  (forall X r F, at_t h X r F -> forall f l, visited h f r = Ok l -> flat_map (event_of h) l = events_t F) /\
  (forall X xs F, at_r h X xs F -> forall f l, flat_res (visited h f) (flat_map olist xs) = Ok l -> flat_map (event_of h) l = events_r F).
Proof.
  apply at_ind; intros; cbn [flat_map olist app] in *; visit; cbn [flat_map events events_p events_t events_r];
    rewrite ?flat_map_app, ?app_nil_r;
    try match goal with |- context [event_of h ?r ++ _] => unfold event_of at 1; match goal with E : nth_error h r = Some _ |- _ => rewrite E end; cbn [app] end;
    repeat (f_equal; eauto using events_property).
  - rewrite (visit_thing _ _ _ _ _ H _ _ H0). destruct H as [r n d fo E N|r n E]; unfold event_of; rewrite E; reflexivity.
  - cbn. unfold event_of. rewrite H. reflexivity.
Qed.

Lemma pred_var_other h r c : nth_error h r = Some c -> (forall p a, c <> CPredication p a) -> Simplify.pred_var h r = [].
Proof. intros E N. unfold Simplify.pred_var. rewrite E. destruct c; try reflexivity. destruct (N _ _ eq_refl). Qed.
Lemma pred_vars_property h r p : rprop h r p -> forall f l, visited h f r = Ok l -> flat_map (Simplify.pred_var h) l = [].
Proof.
  intros H. induction H as [r s E|r v T|r x y p q E Hp IHp Hq IHq]; intros f l V.
  - visit. cbn. rewrite (pred_var_other _ _ _ E) by discriminate. reflexivity.
  - rewrite (visit_thing _ _ _ _ _ T _ _ V). destruct T as [r n d fo E N|r n E]; rewrite (pred_var_other _ _ _ E) by discriminate; reflexivity.
  - visit. cbn [flat_map]. rewrite (pred_var_other _ _ _ E) by discriminate. cbn. rewrite flat_map_app, app_nil_r. erewrite IHp, IHq by eassumption. reflexivity.
Qed.
Lemma pred_vars_at h :
  (forall X r F, at_f h X r F -> forall f l, visited h f r = Ok l -> flat_map (Simplify.pred_var h) l = as_predicates F) /\
  (forall X r F, at_p h X r F -> forall f l, visited h f r = Ok l -> flat_map (Simplify.pred_var h) l = as_predicates_p F) /\
  (forall X r F, at_t h X r F -> forall f l, visited h f r = Ok l -> flat_map (Simplify.pred_var h) l = as_predicates_t F) /\
  (forall X xs F, at_r h X xs F -> forall f l, flat_res (visited h f) (flat_map olist xs) = Ok l -> flat_map (Simplify.pred_var h) l = as_predicates_r F).
Proof.
  apply at_ind; intros; cbn [flat_map olist app] in *; visit; cbn [flat_map as_predicates as_predicates_p as_predicates_t as_predicates_r];
    rewrite ?flat_map_app, ?app_nil_r;
    try (rewrite (pred_var_other h r _ H) by discriminate; cbn [app flat_map]; repeat (f_equal; eauto)).
  - f_equal; [|f_equal; eauto]. unfold Simplify.pred_var. rewrite H.
    match goal with A : at_p h _ x p |- _ => destruct A as [y q Q|y z F Z E A] end; [|rewrite E; reflexivity].
    destruct Q as [y s E|y v [y' n d fo E N|y' n E]|y a b q1 q2 E Q1 Q2]; rewrite E; reflexivity.
  - eapply pred_vars_property; eassumption.
  - rewrite (visit_thing _ _ _ _ _ H _ _ H0). destruct H as [r n d fo E N|r n E]; rewrite (pred_var_other _ _ _ E) by discriminate; reflexivity.
  - reflexivity.
  - eauto.
  - f_equal; eauto.
Qed.
