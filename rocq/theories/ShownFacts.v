(** The quantifiers and predicates of a meaning. *)

From Coq Require Import Ascii String NArith List Bool Arith Lia.
From Verif Require Import Base PegSyntax Ast Logic LogicWords LogicSpec Meaning MeaningNames Shown ShownRead.
Import ListNotations.
Open Scope string_scope.
Open Scope list_scope.
Open Scope nat_scope.

Section Fine.
Variable U : unicode.
Variable ol : list (N * N).
Variable Pn : string -> Prop.
Hypothesis Pamong : Pn "≺".

(** Every quantifier is set, and the named predicates are as [Pn] says. *)
Fixpoint pfine (p : property) : Prop :=
  match p with Named s => Pn s | Unnamed _ => True | Serial l r => pfine l /\ pfine r end.
Fixpoint fine (F : formula) : Prop :=
  match F with
  | Holds p _ => pfine p
  | Both _ l r => fine l /\ fine r
  | Quantified q _ _ R G => q <> QUnset /\ match R with None => True | Some R => fine R end /\ fine G
  end.
Fixpoint prfine (p : predicate) : Prop := match p with One a => pfine a | Two _ l r => prfine l /\ prfine r end.
Definition sfine (t : state) : Prop := forall y R, In (y, R) (t_outer t) -> fine R.
Definition wfine (w : word) : Prop := Pn (word_pred U (w_t w)).
Definition nfine (n : node) : Prop := Forall wfine (predicate_words n).
Definition onfine (o : option node) : Prop := match o with None => True | Some n => nfine n end.
Definition bfine (b : option (quant * nat * option formula)) : Prop :=
  match b with None => True | Some (q, _, R) => q <> QUnset /\ match R with None => True | Some R => fine R end end.

Lemma serial_fine : forall p q, prfine p -> prfine q -> prfine (serial p q).
Proof.
  induction p as [a|c p1 IH1 p2 IH2]; intros q Hp Hq; cbn [serial].
  - induction q as [b|c q1 IH1 q2 IH2]; cbn; [split; assumption|]. destruct Hq. split; auto.
  - destruct Hp. split; auto.
Qed.
Lemma holds_fine : forall P l, prfine P -> fine (holds P l).
Proof. induction P as [a|c p IH1 q IH2]; intros l H; cbn in *; [exact H|]. destruct H. auto. Qed.
Lemma predicate_fine vars : forall n i P i', predicate_of U ol vars n i = Some (P, i') -> nfine n -> prfine P.
Proof.
  fix IH 1. intros n i P i' E H. destruct n; try discriminate; cbn [predicate_of] in E; unfold nfine in H; cbn [predicate_words] in H.
  - destruct (predicate_of U ol vars n1 i) as [[p i1]|] eqn:E1; [|discriminate]. destruct (predicate_of U ol vars n2 i1) as [[q i2]|] eqn:E2; [|discriminate].
    injection E as <- <-. apply Forall_app in H. destruct H. apply serial_fine; [exact (IH _ _ _ _ E1 H)|exact (IH _ _ _ _ E2 H0)].
  - destruct (is_variable U ol (NWordPredicate w)) as [v|].
    + destruct (looked_up vars v i) as [t j]. injection E as <- <-. exact I.
    + injection E as <- <-. inversion H; subst. assumption.
  - destruct k; try discriminate. destruct (connects_as U ru) as [c|]; [|discriminate].
    destruct (predicate_of U ol vars n1 i) as [[p i1]|] eqn:E1; [|discriminate]. destruct (predicate_of U ol vars n2 i1) as [[q i2]|] eqn:E2; [|discriminate].
    injection E as <- <-. apply Forall_app in H. destruct H. split; [exact (IH _ _ _ _ E1 H)|exact (IH _ _ _ _ E2 H0)].
Qed.
Lemma wrap_fine b f F : bfine b -> fine F -> fine (wrap b f F).
Proof. destruct b as [[[q x] R]|]; cbn; [|auto]. intros [A B] C. auto. Qed.
Lemma among_fine y x : fine (among y x).
Proof. exact Pamong. Qed.
Lemma quantifies_set o q : quantifies_as U o = Some q -> q <> QUnset.
Proof.
  unfold quantifies_as, listed, option_map. destruct o as [w|]; [|intros E; injection E as <-; discriminate].
  cbn [find fst]. repeat match goal with |- context [if has_text ?u ?a ?b then _ else _] => destruct (has_text u a b) end; cbn; intros E; try discriminate; injection E as <-; discriminate.
Qed.

Definition Q1 (g : context) (t : state) (a : list (thing * nat)) (n : node) (F : formula) (t' : state) : Prop := nfine n -> sfine t -> fine F /\ sfine t'.
Definition Q2 (g : context) t (a : list (thing * nat)) (st : node) (keep : bool) (ts : list node) F (ts' : list node) t' : Prop :=
  nfine st -> Forall nfine ts -> sfine t -> fine F /\ sfine t' /\ Forall nfine ts'.
Definition Q3 (g : context) t (f q : option word) (p : node) (rel : option node) (b : option (quant * nat * option formula)) (x : thing) (g' : context) t' : Prop :=
  nfine p -> onfine rel -> sfine t -> bfine b /\ sfine t'.
Definition Q4 (g : context) t (x : nat) (rel : option node) (R : option formula) t' : Prop :=
  onfine rel -> sfine t -> match R with None => True | Some R => fine R end /\ sfine t'.
Definition Q5 (g : context) t (n : node) (F : formula) t' : Prop := nfine n -> sfine t -> fine F /\ sfine t'.

Ltac two_fine H := unfold nfine in H; cbn [predicate_words] in H; apply Forall_app in H.
Lemma flat_fine ts : Forall wfine (flat_map predicate_words ts) -> Forall nfine ts.
Proof. induction ts as [|x ts IH]; cbn; intros H; constructor; apply Forall_app in H; [apply H|apply IH, H]. Qed.
Lemma tail_fine {A} (P : A -> Prop) l : Forall P l -> Forall P (tl l).
Proof. destruct 1; [constructor|assumption]. Qed.
Lemma arg_parts f q p rel : nfine (NPredArg f q p rel) -> nfine p /\ onfine rel.
Proof. intros H. two_fine H. destruct H as [A B]. split; [exact A|]. destruct rel; [exact B|exact I]. Qed.

Theorem parts_fine :
  (forall g t a n F t', statement U ol g t a n F t' -> Q1 g t a n F t') /\
  (forall g t a st keep ts F ts' t', terms U ol g t a st keep ts F ts' t' -> Q2 g t a st keep ts F ts' t') /\
  (forall g t f q p rel b x g' t', argument U ol g t f q p rel b x g' t' -> Q3 g t f q p rel b x g' t') /\
  (forall g t x rel R t', relative U ol g t x rel R t' -> Q4 g t x rel R t') /\
  (forall g t n F t', clause U ol g t n F t' -> Q5 g t n F t').
Proof.
  apply meaning_min.
  - intros g t a ts bi st F ts' t' _ IH H S. two_fine H. destruct H as [A B]. destruct (IH B (flat_fine _ A) S) as (X & Y & _). auto.
  - intros g t a p ts na F ts' t' _ IH H S. two_fine H. destruct H as [A B].
    assert (A' : nfine (NPredication p None na)) by (unfold nfine; cbn [predicate_words]; rewrite app_nil_r; exact A). destruct (IH A' (flat_fine _ B) S) as (X & Y & _). auto.
  - intros g t a p na P i l Hp Hl H S. two_fine H. destruct H as [A _]. split; [apply holds_fine; eapply predicate_fine; eassumption|exact S].
  - intros g t a f m ru l r c F G t1 t2 _ _ IH1 _ IH2 H S. two_fine H. destruct H as [A B]. destruct (IH1 A S) as [X S1]. destruct (IH2 B S1) as [Y S2]. cbn. auto.
  - intros g t a st keep F t' _ IH H _ S. destruct (IH H S). auto.
  - intros g t a st keep f m ru l r rest c F G ts1 ts2 t1 t2 _ _ IH1 _ IH2 H T S. assert (T0 := T). inversion T as [|? ? A B]; subst. two_fine A. destruct A as [Al Ar]. apply flat_fine in Al, Ar.
    destruct (IH1 H) as (X & S1 & _); [apply Forall_app; auto|exact S|]. destruct (IH2 H) as (Y & S2 & _); [apply Forall_app; auto|exact S1|]. cbn. auto.
  - intros g t a st keep f m ru l r rest c F G ts1 ts2 t1 t2 _ _ _ IH1 _ IH2 H T S. inversion T as [|? ? A B]; subst. two_fine A. destruct A as [Al Ar].
    destruct (IH1 H) as (X & S1 & T1); [constructor; assumption|exact S|]. destruct (IH2 H) as (Y & S2 & T2); [constructor; [exact Ar|apply tail_fine, T1]|exact S1|]. cbn. auto.
  - intros g t a st keep f q p rel rest b x g' F ts1 t1 t2 _ IH1 _ IH2 H T S. inversion T as [|? ? A B]; subst. destruct (arg_parts f q p rel A) as [Ap Ar].
    destruct (IH1 Ap Ar S) as [Bb S1]. destruct (IH2 H B S1) as (X & S2 & T2). split; [apply wrap_fine; assumption|]. auto.
  - intros g t a st keep go f q p rel rest b x g' F ts1 t1 t2 pos _ IH1 _ _ IH2 H T S. inversion T as [|? ? A B]; subst. destruct (arg_parts f q p rel A) as [Ap Ar].
    destruct (IH1 Ap Ar S) as [Bb S1]. destruct (IH2 H B S1) as (X & S2 & T2). split; [apply wrap_fine; assumption|]. auto.
  - intros g t a st keep go f m ru l r rest c F G ts1 ts2 t1 t2 _ _ _ IH1 _ IH2 H T S. inversion T as [|? ? A B]; subst. two_fine A. destruct A as [Al Ar].
    destruct (IH1 H) as (X & S1 & T1); [constructor; assumption|exact S|]. destruct (IH2 H) as (Y & S2 & T2); [constructor; [exact Ar|apply tail_fine, T1]|exact S1|]. cbn. auto.
  - intros g t f q p rel x _ _ _ S. cbn. auto.
  - intros g t f w p rel v qq R t' _ _ Hq _ IH _ Hr S. destruct (IH Hr S) as [X S1]. split; [|exact S1]. split; [eapply quantifies_set, Hq|exact X].
  - intros g t f p v x i _ _ _ _ _ S. cbn. auto.
  - intros g t f p n v x i R t' _ _ _ _ IH _ Hr S. destruct (IH Hr S) as [X S1]. split; [|exact S1]. split; [discriminate|]. split; [apply among_fine|exact X].
  - intros g t f q p rel _ _ _ _ _ _ S. cbn. auto.
  - intros g t f p x _ _ _ _ _ _ S. cbn. auto.
  - intros g t f q p rel x R t' _ _ _ _ _ _ IH _ Hr S. destruct (IH Hr S) as [X S1]. split; [|exact S1]. split; [discriminate|]. destruct R as [R|]; [split; [apply among_fine|exact X]|apply among_fine].
  - intros g t f q p rel qq P i R0 R t' _ _ _ Hq _ Hp _ IH ER Hn Hr S. destruct (IH Hr S) as [X S1].
    assert (Fr : fine R). { subst R. assert (H := holds_fine P [Some (Bound (t_next t) (given f))] (predicate_fine _ _ _ _ _ Hp Hn)). cbn zeta. destruct R0; [split; assumption|exact H]. }
    apply quantifies_set in Hq.
    destruct qq; try (split; [split; [discriminate|exact Fr]|exact S1]); [|congruence]. destruct (depends g R); [split; [split; [discriminate|exact Fr]|exact S1]|].
    split; [exact I|]. intros y R' J. cbn in J. apply in_app_or in J. destruct J as [J|[J|[]]]; [eapply S1, J|]. injection J as <- <-. exact Fr.
  - intros g t x _ S. auto.
  - intros g t x n F t' _ IH H S. apply IH; assumption.
  - intros g t st F t' _ IH H S. apply IH; assumption.
  - intros g t lu st F t' _ IH H S. apply IH; assumption.
  - intros g t f m ru l r c F G t1 t2 _ _ IH1 _ IH2 H S. two_fine H. destruct H as [A B]. destruct (IH1 A S) as [X S1]. destruct (IH2 B S1) as [Y S2]. cbn. auto.
Qed.

Lemma sentence_fine t n F t' : sentence U ol t n F t' -> nfine n -> sfine t -> fine F /\ sfine t'.
Proof.
  induction 1 as [t je st da F t' S|t f m ru l r F G t1 t2 T Sl IHl Sr IHr]; intros H St.
  - destruct parts_fine as [P _]. exact (P _ _ _ _ _ _ S H St).
  - two_fine H. destruct H as [A B]. destruct (IHl A St) as [X S1]. destruct (IHr B S1) as [Y S2]. cbn. auto.
Qed.
Lemma items_fine t o d o' t' : items U ol t o d o' t' -> (forall n, In n d -> sentence_item n -> nfine n) -> sfine t -> match o with None => True | Some F => fine F end ->
  match o' with None => True | Some F => fine F end /\ sfine t'.
Proof.
  induction 1 as [t o|t o n d o' t' N I IH|t o n d F t1 o' t' N S I IH]; intros H St Fo; [auto| |].
  - apply IH; auto. intros m J. apply H. right. exact J.
  - destruct (sentence_fine _ _ _ _ S (H n (or_introl eq_refl) N) St) as [X S1]. apply IH; [intros m J; apply H; right; exact J|exact S1|]. destruct o; [split; assumption|exact X].
Qed.
Lemma filled_fine : forall F b, fine F -> fine (filled b F).
Proof.
  fix IH 1. intros F b H. destruct F as [p l|c l r|q x f R G]; cbn [filled].
  - destruct b as [y|]; [|exact H]. destruct l; [|exact H]. destruct (existsb _ _); exact H.
  - destruct H. split; apply IH; assumption.
  - destruct H as (A & B & C). split; [exact A|]. split; [destruct R as [R|]; [apply IH, B|exact I]|apply IH, C].
Qed.
Theorem means_fine d F : means U ol d F -> (forall n, In n d -> sentence_item n -> nfine n) -> fine F.
Proof.
  intros (G & t & I & ->) H. destruct (items_fine _ _ _ _ _ I H) as [X S]; [intros y R []|exact Logic.I|]. apply filled_fine.
  unfold sfine in S. induction (t_outer t) as [|[y R] l IH]; [exact X|]. cbn [fold_right]. split; [discriminate|]. split; [eapply S; left; reflexivity|]. apply IH. intros z R' J. eapply S. right. exact J.
Qed.
End Fine.

(** ** Shapes *)

Lemma join_good c B : forall A, good A -> good B -> good (join c A B).
Proof.
  induction A as [p l|c' A1 _ A2 IH|q x R G _]; intros Ga Gb; cbn [join]; [cbn [good] in *; auto| |cbn [good] in *; tauto].
  destruct (conn_eqb c' c) eqn:E; [|cbn [good] in *; auto]. apply conn_eqb_eq in E. subst c'. destruct Ga as (N & G1 & G2). cbn [good]. auto.
Qed.
Lemma shape_good name F : (forall x, In x (variables F) -> var_name (name x) = true) -> fine (fun s => pred_name s = true) F -> good (shape_of name F).
Proof.
  revert F. fix IH 1. intros F V H. destruct F as [p l|c l r|q x f R G]; cbn [shape_of fine variables] in *.
  - cbn [good]. split; [|split; [apply parts_nonempty|]].
    + assert (Vp : forall x, In x (property_vars p) -> var_name (name x) = true) by (intros; apply V, in_or_app; auto). clear V.
      induction p as [s|t|a IHa b IHb]; cbn [parts forallb good_part pfine property_vars] in *; [rewrite H; reflexivity| |].
      * replace (thing_text name t) with (name (thing_var t)) by (destruct t; reflexivity). rewrite Vp; [reflexivity|]. left. reflexivity.
      * destruct H. rewrite forallb_app, IHa, IHb; auto; intros; apply Vp, in_or_app; auto.
    + apply forallb_forall. intros o I. apply in_map_iff in I. destruct I as ([t|] & <- & I); [|reflexivity]. cbn [option_map good_arg].
      replace (thing_text name t) with (name (thing_var t)) by (destruct t; reflexivity). apply V, in_or_app. right. unfold arg_vars. apply in_flat_map. exists (Some t). split; [exact I|left; reflexivity].
  - destruct H. apply join_good; apply IH; auto; intros; apply V, in_or_app; auto.
  - destruct H as (A & B & C). cbn [good]. split; [exact A|]. split; [apply V; left; reflexivity|]. split.
    + destruct R as [R|]; [|exact I]. apply IH; [|exact B]. intros y J. apply V. right. apply in_or_app. auto.
    + apply IH; [|exact C]. intros y J. apply V. right. apply in_or_app. auto.
Qed.
