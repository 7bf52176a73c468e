(** The variables of meanings, and that there is one meaning. *)

From Coq Require Import String NArith List Bool Arith Lia.
From Verif Require Import Base PegSyntax Ast Logic LogicWords LogicSpec Meaning.
Import ListNotations.
Open Scope string_scope.
Open Scope list_scope.
Open Scope nat_scope.

Scheme statement_min := Minimality for statement Sort Prop
  with terms_min := Minimality for terms Sort Prop
  with argument_min := Minimality for argument Sort Prop
  with relative_min := Minimality for relative Sort Prop
  with clause_min := Minimality for clause Sort Prop.
Combined Scheme meaning_min from statement_min, terms_min, argument_min, relative_min, clause_min.

Definition vnames (g : context) : list nat := map snd (c_vars g).
Definition onames (t : state) : list nat := map fst (t_outer t).
Definition anames (a : list (thing * nat)) : list nat := flat_map (fun x => of_thing (fst x)) a.
Definition lok (t : state) : Prop := forall k x, In (k, x) (t_lifted t) -> In x (onames t).
Definition hname (g : context) (y : nat) : Prop := c_hoa g = Some y.

Lemma looked_up_names vars v i x i' y : looked_up vars v i = (x, i') -> In y (of_thing x) -> In y (map snd vars).
Proof.
  unfold looked_up. destruct (find _ vars) as [[v' z]|] eqn:F; intros E I; injection E as <- <-; [|destruct I].
  destruct I as [<-|[]]. apply find_some in F. apply in_map_iff. exists (v', z). split; [reflexivity|apply F].
Qed.

Fixpoint pnames (p : predicate) : list nat := match p with One a => of_property a | Two _ l r => pnames l ++ pnames r end.
Lemma serial_names : forall p q y, In y (pnames (serial p q)) -> In y (pnames p) \/ In y (pnames q).
Proof.
  induction p as [a|c p1 IH1 p2 IH2]; intros q y.
  - induction q as [b|c q1 IH1 q2 IH2]; cbn [serial pnames of_property]; intros I; apply in_app_or in I; [exact I|].
    destruct I as [I|I]; [apply IH1 in I|apply IH2 in I]; destruct I; rewrite ?in_app_iff; auto.
  - cbn [serial pnames]. intros I. apply in_app_or in I. destruct I as [I|I]; [apply IH1 in I|apply IH2 in I]; destruct I; rewrite ?in_app_iff; auto.
Qed.
Lemma holds_names : forall P l y, In y (outside (holds P l)) -> In y (pnames P) \/ In y (of_args l).
Proof.
  induction P as [a|c p IHp q IHq]; intros l y; cbn [holds outside pnames]; intros I; apply in_app_or in I; [exact I|].
  destruct I as [I|I]; [apply IHp in I|apply IHq in I]; destruct I; rewrite ?in_app_iff; auto.
Qed.
Lemma placed_names a l y : placed a l -> In y (of_args l) -> In y (anames a).
Proof.
  intros (_ & Li & k & Fr) I. unfold of_args in I. apply in_flat_map in I. destruct I as ([x|] & I & J); [|destruct J]. cbn in J. rewrite app_nil_r in J.
  apply In_nth_error in I. destruct I as (p & N).
  assert (X : exists q, In (x, q) a).
  { destruct (is_linked a p) eqn:Lk.
    - assert (E : exists z, linked_at a p z).
      { clear - Lk. induction a as [|[z q] a IH]; [discriminate|]. unfold is_linked in Lk. cbn [existsb snd] in Lk.
        destruct (existsb (fun y => snd y =? S p) a) eqn:R.
        - destruct (IH R) as (w & pre & post & -> & D). exists w, ((z, q) :: pre), post. auto.
        - rewrite orb_false_r in Lk. apply Nat.eqb_eq in Lk. subst q. exists z, [], a. split; [reflexivity|]. intros w K.
          assert (T : existsb (fun y => snd y =? S p) a = true) by (apply existsb_exists; exists (w, S p); split; [exact K|apply Nat.eqb_refl]). congruence. }
      destruct E as (z & E). assert (M := Li _ _ E). rewrite N in M. injection M as ->. destruct E as (pre & post & -> & _). exists (S p). apply in_elt.
    - assert (In (Some x) (free_slots a l)).
      { unfold free_slots. apply in_map_iff. exists (p, Some x). split; [reflexivity|]. apply filter_In. split; [|cbn; rewrite Lk; reflexivity].
        assert (C : forall (m : list (option thing)) i, nth_error m p = Some (Some x) -> In (i + p, Some x) (combine (seq i (length m)) m)).
        { clear. revert p. intros p m. revert p. induction m as [|o m IH]; intros [|p] i E; try discriminate; cbn in *.
          - injection E as ->. rewrite Nat.add_0_r. left. reflexivity.
          - right. replace (i + S p) with (S i + p) by lia. apply IH, E. }
        apply (C l 0 N). }
      rewrite Fr in H. apply in_app_or in H. destruct H as [H|H]; [|apply repeat_spec in H; discriminate].
      apply in_map_iff in H. destruct H as (z & Z & H). injection Z as ->. unfold unlinked in H. apply in_map_iff in H. destruct H as ([w q] & E & H). cbn in E. subst w.
      apply filter_In in H. exists q. apply H. }
  destruct X as (q & X). unfold anames. apply in_flat_map. exists (x, q). auto.
Qed.

Section Names.
Variables (U : unicode) (ol : list (N * N)).

Lemma predicate_names vars : forall n i P i' y, predicate_of U ol vars n i = Some (P, i') -> In y (pnames P) -> In y (map snd vars).
Proof.
  fix IH 1. intros n i P i' y E I. destruct n; try discriminate; cbn [predicate_of] in E.
  - destruct (predicate_of U ol vars n1 i) as [[p i1]|] eqn:E1; [|discriminate]. destruct (predicate_of U ol vars n2 i1) as [[q i2]|] eqn:E2; [|discriminate].
    injection E as <- <-. apply serial_names in I. destruct I as [I|I]; [exact (IH _ _ _ _ _ E1 I)|exact (IH _ _ _ _ _ E2 I)].
  - destruct (is_variable U ol (NWordPredicate w)) as [v|]; [|injection E as <- <-; destruct I].
    destruct (looked_up vars v i) as [t j] eqn:L. injection E as <- <-. eapply looked_up_names; [exact L|exact I].
  - destruct k; try discriminate. destruct (connects_as U ru) as [c|]; [|discriminate].
    destruct (predicate_of U ol vars n1 i) as [[p i1]|] eqn:E1; [|discriminate]. destruct (predicate_of U ol vars n2 i1) as [[q i2]|] eqn:E2; [|discriminate].
    injection E as <- <-. cbn [pnames] in I. apply in_app_or in I. destruct I as [I|I]; [exact (IH _ _ _ _ _ E1 I)|exact (IH _ _ _ _ _ E2 I)].
Qed.

Definition later (t t' : state) : Prop := lok t -> lok t' /\ incl (onames t) (onames t').
Definition bname (b : option (quant * nat * option formula)) (y : nat) : Prop := match b with Some (_, x, _) => y = x | None => False end.
Definition brestr (b : option (quant * nat * option formula)) : list nat := match b with Some (_, _, Some R) => outside R | _ => [] end.

Lemma later_trans a b c : later a b -> later b c -> later a c.
Proof. intros X Y L. destruct (X L) as [L1 I1]. destruct (Y L1) as [L2 I2]. split; [exact L2|eapply incl_tran; eassumption]. Qed.
Lemma later_next t i : later t (with_next t i).
Proof. intros L. split; [exact L|apply incl_refl]. Qed.
Lemma among_names y x z : In z (outside (among y x)) -> z = y \/ In z (of_thing x).
Proof. cbn. rewrite !app_nil_r. intros [->|I]; [left; reflexivity|right; exact I]. Qed.
Lemma wrap_names b f F y : In y (outside (wrap b f F)) -> (In y (brestr b) \/ In y (outside F)) /\ ~ bname b y.
Proof.
  destruct b as [[[q x] [R|]]|]; cbn [wrap outside brestr bname]; intros I; [| |auto]; apply filter_In in I; destruct I as [I D]; apply negb_true_iff, Nat.eqb_neq in D.
  - apply in_app_or in I. destruct I; auto.
  - auto.
Qed.

Definition P1 (g : context) (t : state) (a : list (thing * nat)) (n : node) (F : formula) (t' : state) : Prop :=
  later t t' /\ (lok t -> forall y, In y (outside F) -> In y (vnames g) \/ hname g y \/ In y (onames t') \/ In y (anames a)).
Definition P2 g t a (st : node) (keep : bool) (ts : list node) F (ts' : list node) t' : Prop := P1 g t a st F t'.
Definition P3 (g : context) t (f q : option word) (p : node) (rel : option node) b (x : thing) (g' : context) t' : Prop :=
  later t t' /\
  (lok t -> forall y, In y (of_thing x) -> In y (vnames g) \/ hname g y \/ In y (onames t') \/ bname b y) /\
  (lok t -> forall y, In y (brestr b) -> In y (vnames g) \/ hname g y \/ In y (onames t') \/ bname b y) /\
  (forall y, In y (vnames g') -> In y (vnames g) \/ bname b y) /\ c_hoa g' = c_hoa g.
Definition P4 (g : context) t (x : nat) (rel : option node) (R : option formula) t' : Prop :=
  later t t' /\ (lok t -> forall F y, R = Some F -> In y (outside F) -> In y (vnames g) \/ y = x \/ In y (onames t')).
Definition P5 (g : context) t (n : node) (F : formula) t' : Prop :=
  later t t' /\ (lok t -> forall y, In y (outside F) -> In y (vnames g) \/ hname g y \/ In y (onames t')).

Lemma anames_snoc a x pos y : In y (anames (a ++ [(x, pos)])) -> In y (anames a) \/ In y (of_thing x).
Proof. unfold anames. rewrite flat_map_app. intros I. apply in_app_or in I. destruct I as [I|I]; [auto|]. cbn in I. rewrite app_nil_r in I. auto. Qed.
Lemma after_argument g t b x g' t1 (f q : option word) p rel a pos F t2 fo st :
  P3 g t f q p rel b x g' t1 -> P1 g' t1 (a ++ [(x, pos)]) st F t2 -> P1 g t a st (wrap b fo F) t2.
Proof.
  intros (L1 & X & R & V & Ho) (L2 & N). split; [exact (later_trans _ _ _ L1 L2)|]. intros L y I.
  destruct (L1 L) as [Lo1 I1]. destruct (L2 Lo1) as [Lo2 I2]. apply wrap_names in I. destruct I as [[I|I] D].
  - destruct (R L _ I) as [K|[K|[K|K]]]; auto. contradiction.
  - destruct (N Lo1 _ I) as [K|[K|[K|K]]].
    + destruct (V _ K) as [K'|K']; [auto|contradiction].
    + unfold hname in *. rewrite Ho in K. auto.
    + auto.
    + apply anames_snoc in K. destruct K as [K|K]; [auto|]. destruct (X L _ K) as [J|[J|[J|J]]]; auto. contradiction.
Qed.
Lemma two_names g t a n1 n2 n c F G t1 t2 : P1 g t a n1 F t1 -> P1 g t1 a n2 G t2 -> P1 g t a n (Both c F G) t2.
Proof.
  intros (L1 & N1) (L2 & N2). split; [exact (later_trans _ _ _ L1 L2)|]. intros L y I. destruct (L1 L) as [Lo1 I1]. destruct (L2 Lo1) as [Lo2 I2].
  cbn [outside] in I. apply in_app_or in I. destruct I as [I|I]; [destruct (N1 L _ I) as [K|[K|[K|K]]]; auto|apply N2; assumption].
Qed.

Theorem names :
  (forall g t a n F t', statement U ol g t a n F t' -> P1 g t a n F t') /\
  (forall g t a st keep ts F ts' t', terms U ol g t a st keep ts F ts' t' -> P2 g t a st keep ts F ts' t') /\
  (forall g t f q p rel b x g' t', argument U ol g t f q p rel b x g' t' -> P3 g t f q p rel b x g' t') /\
  (forall g t x rel R t', relative U ol g t x rel R t' -> P4 g t x rel R t') /\
  (forall g t n F t', clause U ol g t n F t' -> P5 g t n F t').
Proof.
  apply meaning_min.
  - intros. exact H0.
  - intros. exact H0.
  - intros g t a p na P i l Hp Hl. split; [apply later_next|]. intros _ y I. apply holds_names in I. destruct I as [I|I].
    + left. eapply predicate_names; eassumption.
    + right. right. right. eapply placed_names; eassumption.
  - intros. eapply two_names; eassumption.
  - intros g t a st keep F t' _ (L & N). split; [exact L|]. intros Lo y I. destruct (N Lo _ I) as [K|[K|[K|K]]]; auto. destruct keep; [auto|destruct K].
  - intros. eapply (two_names _ _ _ st st); eassumption.
  - intros. eapply (two_names _ _ _ st st); eassumption.
  - intros. eapply after_argument; eassumption.
  - intros. eapply after_argument; eassumption.
  - intros. eapply (two_names _ _ _ st st); eassumption.
  - (* lifted *) intros g t f q p rel x H. split; [intros L; split; [exact L|apply incl_refl]|]. split; [|split; [intros _ y []|split; [auto|reflexivity]]].
    intros L y [<-|[]]. right. right. left. unfold lifted_at in H. destruct (find _ (t_lifted t)) as [[k z]|] eqn:Fi; [|discriminate]. injection H as <-. apply find_some in Fi. eapply L, (proj1 Fi).
  - (* quantified *) intros g t f w p rel v qq R t' _ _ _ _ (L & N). split; [intros Lo; apply L, Lo|]. split; [intros _ y [<-|[]]; right; right; right; reflexivity|]. split; [|split; [|reflexivity]].
    + intros Lo y I. destruct R as [R|]; [|destruct I]. destruct (N Lo _ _ eq_refl I) as [K|[K|K]]; [|right; right; right; exact K|auto].
      cbn in K. destruct K as [<-|K]; [right; right; right; reflexivity|auto].
    + intros y K. cbn in K. destruct K as [<-|K]; [right; reflexivity|auto].
  - (* variable *) intros g t f p v x i _ _ Hl. split; [apply later_next|]. split; [|split; [intros _ y []|split; [auto|reflexivity]]].
    intros _ y I. left. eapply looked_up_names; eassumption.
  - (* variable and relative clause *) intros g t f p n v x i R t' _ _ Hl _ (L & N). split; [intros Lo; apply L, Lo|].
    split; [intros _ y [<-|[]]; right; right; right; reflexivity|]. split; [|split; [auto|reflexivity]].
    intros Lo y I. cbn [brestr] in I. change (outside (Both KAnd (among i x) R)) with (outside (among i x) ++ outside R) in I. apply in_app_or in I. destruct I as [I|I].
    + apply among_names in I. destruct I as [I|I]; [right; right; right; exact I|left; eapply looked_up_names; eassumption].
    + destruct (N Lo _ _ eq_refl I) as [K|[K|K]]; [auto|right; right; right; exact K|auto].
  - (* unbound hoa *) intros. split; [apply later_next|]. split; [intros _ y []|]. split; [intros _ y []|]. auto.
  - (* hoa *) intros. split; [intros L; split; [exact L|apply incl_refl]|]. split; [intros _ y [<-|[]]; auto|]. split; [intros _ y []|]. auto.
  - (* some of hoa *) intros g t f q p rel x R t' _ _ _ Hx _ _ (L & N). split; [intros Lo; apply L, Lo|].
    split; [intros _ y [<-|[]]; right; right; right; reflexivity|]. split; [|split; [auto|reflexivity]].
    assert (A : forall y, In y (outside (among (t_next t) (Bound x false))) -> hname g y \/ y = t_next t).
    { intros y I. apply among_names in I. destruct I as [I|[<-|[]]]; auto. }
    intros Lo y I. cbn [brestr] in I. destruct R as [R|].
    + change (outside (Both KAnd (among (t_next t) (Bound x false)) R)) with (outside (among (t_next t) (Bound x false)) ++ outside R) in I. apply in_app_or in I. destruct I as [I|I].
      * destruct (A _ I) as [K|K]; [auto|right; right; right; exact K].
      * destruct (N Lo _ _ eq_refl I) as [K|[K|K]]; [auto|right; right; right; exact K|auto].
    + destruct (A _ I) as [K|K]; [auto|right; right; right; exact K].
  - (* plain *) intros g t f q p rel qq P i R0 R t' _ _ _ _ _ Hp _ (L & N) ER.
    assert (A : lok t -> forall y, In y (outside R) -> In y (vnames g) \/ y = t_next t \/ In y (onames t')).
    { intros Lo y I. assert (H : forall z, In z (outside (holds P [Some (Bound (t_next t) (given f))])) -> In z (vnames g) \/ z = t_next t).
      { intros z K. apply holds_names in K. destruct K as [K|[<-|[]]]; [left; eapply predicate_names; eassumption|right; reflexivity]. }
      subst R. destruct R0 as [G|].
      - cbn [outside] in I. apply in_app_or in I. destruct I as [I|I]; [destruct (H _ I); auto|]. destruct (N Lo _ _ eq_refl I) as [K|[K|K]]; auto.
      - destruct (H _ I); auto. }
    assert (Keep : (P3 g t f q p rel (Some (QAll, t_next t, Some R)) (Bound (t_next t) (given f)) g t') /\ P3 g t f q p rel (Some (qq, t_next t, Some R)) (Bound (t_next t) (given f)) g t').
    { split; (split; [intros Lo; apply L, Lo|]; split; [intros _ y [<-|[]]; right; right; right; reflexivity|]; split; [|split; [auto|reflexivity]];
        intros Lo y I; cbn [brestr] in I; destruct (A Lo _ I) as [K|[K|K]]; [auto|right; right; right; exact K|auto]). }
    destruct qq; try exact (proj2 Keep). destruct (depends g R); [exact (proj1 Keep)|]. clear Keep.
    assert (On : onames (State (t_next t') ((place p, t_next t) :: t_lifted t') (t_outer t' ++ [(t_next t, R)])) = onames t' ++ [t_next t]).
    { unfold onames. cbn [t_outer]. rewrite map_app. reflexivity. }
    split; [|split; [|split; [intros _ y []|split; [auto|reflexivity]]]].
    + intros Lo. destruct (L Lo) as [Lo' I]. split.
      * intros k x [K|K]; rewrite On; apply in_or_app; [injection K as <- <-; right; left; reflexivity|left; eapply Lo', K].
      * rewrite On. apply incl_appl, I.
    + intros _ y [<-|[]]. right. right. left. rewrite On. apply in_or_app. right. left. reflexivity.
  - intros. split; [intros L; split; [exact L|apply incl_refl]|]. discriminate.
  - intros g t x n F t' _ (L & N). split; [exact L|]. intros Lo G y E I. injection E as <-. destruct (N Lo _ I) as [K|[K|K]]; [auto| |auto].
    unfold hname, with_hoa in K. cbn in K. injection K as <-. auto.
  - intros g t st F t' _ (L & N). split; [exact L|]. intros Lo y I. destruct (N Lo _ I) as [K|[K|[K|[]]]]; auto.
  - intros g t lu st F t' _ (L & N). split; [exact L|]. intros Lo y I. destruct (N Lo _ I) as [K|[K|[K|[]]]]; auto.
  - intros g t f m ru l r c F G t1 t2 _ _ (L1 & N1) _ (L2 & N2). split; [exact (later_trans _ _ _ L1 L2)|]. intros Lo y I.
    destruct (L1 Lo) as [Lo1 I1]. destruct (L2 Lo1) as [Lo2 I2]. cbn [outside] in I. apply in_app_or in I. destruct I as [I|I]; [destruct (N1 Lo _ I) as [K|[K|K]]; auto|apply N2; assumption].
Qed.
End Names.
