(** Simplification of regular formulas preserves what they say. *)

From Coq Require Import String NArith List Bool Arith Lia.
From Verif Require Import Base PegSyntax Ast AstSorts Logic LogicWords LogicSpec ScopeSpec Meaning Clauses ClauseHeap Truth TruthFacts.
Import ListNotations.
Open Scope string_scope.
Open Scope list_scope.
Open Scope nat_scope.

Fixpoint shape (l : row) : list bool := match l with Nil => [] | Gap l => false :: shape l | Item _ l => true :: shape l end.
Lemma shape_whole l l' : shape l' = shape l -> whole l' = whole l /\ given_args l' = given_args l.
Proof.
  revert l'. induction l as [|l IH|a l IH]; destruct l' as [|l'|a' l']; cbn; try discriminate; intros E; [auto| |]; injection E as E; destruct (IH l' E) as [W ->]; auto.
Qed.

Lemma fixes_inv pv q R y c : fixes pv q R = Some (y, c) ->
  (q = QThe \/ q = QAll) /\ ~ In y pv /\ exists a b, R = named "=" (Item a (Item b Nil)) /\
    ((exists v, a = Var v /\ var_number v = y /\ c = b) \/ (exists v, b = Var v /\ var_number v = y /\ c = a)).
Proof.
  assert (X : fixes pv QThe R = Some (y, c) -> ~ In y pv /\ exists a b, R = named "=" (Item a (Item b Nil)) /\
    ((exists v, a = Var v /\ var_number v = y /\ c = b) \/ (exists v, b = Var v /\ var_number v = y /\ c = a))).
  { unfold fixes, named. destruct R as [p l| | |]; try discriminate. destruct p as [[s|v|p q']|]; try discriminate. destruct l as [| |a [| |b [| |]]]; try discriminate.
    destruct (String.eqb_spec s "="); [|discriminate]. subst s. destruct (match a, b with Var v, _ => Some (var_number v, b) | _, Var v => Some (var_number v, a) | _, _ => None end) as [[x c']|] eqn:E; [|discriminate].
    destruct (existsb (Nat.eqb x) pv) eqn:P; [discriminate|]. destruct (constant c'); [|discriminate]. intros [= <- <-].
    split; [apply not_among; unfold among; now rewrite P|]. exists a, b. split; [reflexivity|].
    destruct a; [injection E as <- <-; left; eauto|..]; (destruct b; [injection E as <- <-; right; eauto|discriminate..]). }
  intros E. destruct q; try discriminate; (split; [auto|]); now apply X.
Qed.
Lemma fixes_loose pv q R y c x : fixes pv q R = Some (y, c) -> In x (loose_t c) -> In x (loose R).
Proof.
  intros E I. apply fixes_inv in E as (_ & _ & a & b & -> & [(v & -> & _ & ->)|(v & -> & _ & ->)]); cbn [loose named loose_r loose_p numbers_s]; rewrite !in_app_iff; auto.
Qed.

Section Equations.
Variable pv : list nat.
Lemma simple_says_simple V p l : simple pv V (Says (Simple p) l) = let (l', V1) := simple_r pv V l in (Says (Simple p) l', V1).
Proof. reflexivity. Qed.
Lemma simple_says_abstract V A l : simple pv V (Says (Abstract A) l) =
  let (l', V1) := simple_r pv V l in
  if (params A =? 0) || negb (given_args l' =? params A) then let (A', V2) := simple pv V1 A in (Says (Abstract A') l', V2)
  else apply (simple pv) (params A) l' V1 A.
Proof. reflexivity. Qed.
Lemma simple_joined V c F G : simple pv V (Joined c F G) = let (F', V1) := simple pv V F in let (G', V2) := simple pv V1 G in (Joined c F' G', V2).
Proof. reflexivity. Qed.
Lemma simple_binds V q x f G : simple pv V (Binds q x f G) = let (G', V1) := simple pv V G in (Binds q x f G', V1).
Proof. reflexivity. Qed.
Lemma simple_limits V q x f R G : simple pv V (Limits q x f R G) =
  let (R', V1) := simple pv V R in
  match fixes pv q R' with
  | Some (y, c) => simple pv ((y, Some c) :: V1) G
  | None => let (G', V2) := simple pv V1 G in (Limits q x f R' G', V2)
  end.
Proof. reflexivity. Qed.
Lemma simple_that V F : simple_t pv V (That F) = let (F', V1) := simple pv V F in (Some (That F'), V1).
Proof. reflexivity. Qed.
Lemma simple_several V l : simple_t pv V (Several l) = let (l', V1) := simple_m pv V l in (Some (Several l'), V1).
Proof. reflexivity. Qed.
Lemma simple_r_gap V l : simple_r pv V (Gap l) = let (l', V1) := simple_r pv V l in (Gap l', V1).
Proof. reflexivity. Qed.
Lemma simple_r_item V a l : simple_r pv V (Item a l) =
  let (o, V1) := simple_t pv V a in let (l', V2) := simple_r pv V1 l in (match o with None => Gap l' | Some a' => Item a' l' end, V2).
Proof. reflexivity. Qed.
Lemma simple_m_gap V l : simple_m pv V (Gap l) = simple_m pv V l.
Proof. reflexivity. Qed.
Lemma simple_m_item V a l : simple_m pv V (Item a l) =
  let (o, V1) := simple_t pv V a in let (l', V2) := simple_m pv V1 l in
  (match o with None => Gap l' | Some (Several m) => row_app m l' | Some a' => Item a' l' end, V2).
Proof. reflexivity. Qed.
Lemma simple_calm F : calm F = true -> forall V F' V' q, simple pv V F = (F', V') -> fixes pv q F' = None.
Proof.
  assert (NF : forall q F', (forall a b, F' <> named "=" (Item a (Item b Nil))) -> fixes pv q F' = None).
  { intros q F' N. destruct (fixes pv q F') as [[y c]|] eqn:E; [|reflexivity]. apply fixes_inv in E as (_ & _ & a & b & -> & _). destruct (N a b eq_refl). }
  revert F. apply (form_mut (fun F => calm F = true -> forall V F' V' q, simple pv V F = (F', V') -> fixes pv q F' = None) (fun _ => True) (fun _ => True) (fun _ => True)); auto.
  - intros p _ l _ C V F' V' q E. destruct p as [p|A]; [|discriminate]. rewrite simple_says_simple in E. destruct (simple_r pv V l) as [l' V1]. injection E as <- <-.
    apply NF. intros a b [= -> _]. discriminate.
  - intros c F _ G _ _ V F' V' q E. rewrite simple_joined in E. destruct (simple pv V F) as [F1 V1]. destruct (simple pv V1 G) as [G1 V2]. injection E as <- <-. apply NF. discriminate.
  - intros q x f G _ _ V F' V' q' E. rewrite simple_binds in E. destruct (simple pv V G) as [G1 V1]. injection E as <- <-. apply NF. discriminate.
  - intros q x f R _ G HG C V F' V' q' E. rewrite simple_limits in E. destruct (simple pv V R) as [R' V1]. destruct (fixes pv q R') as [[y c]|].
    + eapply HG; [exact C|exact E].
    + destruct (simple pv V1 G) as [G1 V2]. injection E as <- <-. apply NF. discriminate.
Qed.
End Equations.

Section Main.
Variable M : structure.
Variable law : lawful M.
Variable pv : list nat.

Definition q_form (F : form) : Prop := forall V F' V', simple pv V F = (F', V') -> tame F = true -> incl (as_predicates F) pv ->
  pre V (loose F) (binders F) (as_predicates F) ->
  kept (binders F) V V' /\
  (forall x, In x (loose F') -> from V (loose F) x) /\
  params F' = 0 /\
  (forall e, agree M V e (loose F) -> forall w, truth M e F w <-> truth M e F' w) /\
  (forall z zs x, own z zs F = true -> (z = x /\ value V x = None) \/ (exists f, value V z = Some (Some (Var (Bound x f)))) -> In x (z :: zs) ->
    (forall v a, In v (loose F) -> ~ In v (z :: zs) -> value V v = Some (Some a) -> ~ In x (loose_t a)) ->
    forall q y c, fixes pv q F' = Some (y, c) -> y = x /\ ~ In x (loose_t c) /\ exists f, F' = named "=" (Item (Var (Bound x f)) (Item c Nil))).
Definition q_prop (p : prop) : Prop := match p with Simple _ => True | Abstract F => bodied q_form F end.
Definition q_term (a : term) : Prop := forall V o V', simple_t pv V a = (o, V') -> tame_t a = true -> incl (as_predicates_t a) pv ->
  pre V (loose_t a) (binders_t a) (as_predicates_t a) ->
  exists a', o = Some a' /\ kept (binders_t a) V V' /\ (forall x, In x (loose_t a') -> from V (loose_t a) x) /\
    (forall e, agree M V e (loose_t a) -> denotes M e a = denotes M e a').
Definition q_row (l : row) : Prop :=
  (forall V l' V', simple_r pv V l = (l', V') -> tame_r l = true -> incl (as_predicates_r l) pv ->
    pre V (loose_r l) (binders_r l) (as_predicates_r l) ->
    shape l' = shape l /\ kept (binders_r l) V V' /\ (forall x, In x (loose_r l') -> from V (loose_r l) x) /\
    (forall e, agree M V e (loose_r l) -> objects M e l = objects M e l')) /\
  (forall V l' V', simple_m pv V l = (l', V') -> tame_r l = true -> incl (as_predicates_r l) pv ->
    pre V (loose_r l) (binders_r l) (as_predicates_r l) ->
    kept (binders_r l) V V' /\ (forall x, In x (loose_r l') -> from V (loose_r l) x) /\
    (forall e, agree M V e (loose_r l) -> forall k, the_several M (k ++ members M e l) = the_several M (k ++ members M e l'))).

Fixpoint q_items (l : row) : Prop := match l with Nil => True | Gap l => q_items l | Item a l => q_term a /\ q_items l end.

(** An abstraction with its argument. *)
Lemma says_lambda y f0 G a : q_row (Item a Nil) -> q_form G -> params G = 0 ->
  forall V F' V', simple pv V (Says (Abstract (Binds QLambda y f0 G)) (Item a Nil)) = (F', V') ->
  tame_t a = true -> tame G = true -> ~ In y (as_predicates G) -> incl (as_predicates_t a) pv -> incl (as_predicates G) pv ->
  pre V ((loose_t a ++ []) ++ without y (loose G)) ((binders_t a ++ []) ++ y :: binders G) (as_predicates G ++ as_predicates_t a) ->
  exists a' V1, simple_r pv V (Item a Nil) = (Item a' Nil, V1) /\ simple pv ((y, Some a') :: V1) G = (F', V') /\
    kept (binders_t a ++ []) V V1 /\ pre V1 (without y (loose G)) (y :: binders G) (as_predicates G) /\
    pre ((y, Some a') :: V1) (loose G) (binders G) (as_predicates G) /\ ~ In y (loose_t a') /\
    (forall x, In x (loose_t a') -> from V (loose_t a ++ []) x) /\
    (forall e, agree M V e (loose_t a ++ []) -> denotes M e a = denotes M e a').
Proof.
  intros [HR _] HG P0 V F' V' E Ta TG Ny Ia IG Pr. rewrite simple_says_abstract in E. destruct (simple_r pv V (Item a Nil)) as [l' V1] eqn:El.
  assert (Il : incl (as_predicates_r (Item a Nil)) pv) by (cbn; rewrite app_nil_r; exact Ia).
  assert (Pl : pre V (loose_r (Item a Nil)) (binders_r (Item a Nil)) (as_predicates_r (Item a Nil))).
  { eapply pre_left; [exact Pr|]. cbn. rewrite app_nil_r. apply incl_appr, incl_refl. }
  destruct (HR V l' V1 El) as (Sh & K & Lo & Ob); [cbn; now rewrite Ta|exact Il|exact Pl|].
  destruct l' as [|l'|a' l']; try discriminate. destruct l' as [|l'|b l']; try discriminate. cbn [params given_args] in E. rewrite P0 in E. cbn [Nat.eqb orb negb apply] in E.
  exists a', V1. split; [reflexivity|]. cbn [loose_r binders_r] in *.
  assert (PG : pre V1 (without y (loose G)) (y :: binders G) (as_predicates G)).
  { eapply pre_right; [exact Pr|exact K|]. apply incl_appl, incl_refl. }
  assert (Fresh : forall z, In z (y :: binders G) -> ~ In z (loose_t a')).
  { intros z I J. destruct Pr as (_ & D & _ & C). destruct (Lo z) as [[I' _]|(v & b & I' & Ev & J')]; [apply in_or_app; auto| |].
    - apply (D z); apply in_or_app; auto.
    - destruct (C v (Some b)) as (_ & b' & Eb & X); [apply in_or_app; auto|exact Ev|]. injection Eb as <-. apply (X z); [apply in_or_app; auto|exact J']. }
  split; [destruct G; exact E|]. split; [exact K|]. split; [exact PG|]. split.
  { apply pre_set; [eapply pre_under, PG| |exact Ny|].
    - destruct PG as (N & _). now apply NoDup_cons_iff in N as [N _].
    - intros z I. apply Fresh. now right. }
  split; [apply Fresh; now left|]. split; [intros x I; apply Lo; cbn; rewrite app_nil_r; exact I|].
  intros e A. specialize (Ob e A). rewrite !objects_item in Ob. now injection Ob.
Qed.

Lemma kept_refl V : kept [] V V.
Proof. intros x _. reflexivity. Qed.
Lemma value_full V L B P x o : pre V L B P -> In x L -> value V x = Some o -> exists a, o = Some a.
Proof. intros (_ & _ & _ & C) I E. destruct (C x o I E) as (_ & a & -> & _). eauto. Qed.

Lemma truth_lambda e y f G a w : params G = 0 ->
  truth M e (Says (Abstract (Binds QLambda y f G)) (Item a Nil)) w = truth M (at_value M e y (denotes M e a)) G w.
Proof.
  intros P0. rewrite truth_abstract, objects_item. cbn [params given_args whole andb]. rewrite P0. cbn [Nat.eqb orb negb applied]. destruct G; reflexivity.
Qed.
Lemma says_simple_case p l : q_row l -> q_items l -> q_form (Says (Simple p) l).
Proof.
  intros [HR _] HI V F' V' E T I P. rewrite simple_says_simple in E. destruct (simple_r pv V l) as [l' V1] eqn:El. injection E as <- <-.
  cbn [tame] in T. apply andb_prop in T as [T _]. apply andb_prop in T as [Tp Tl]. cbn [loose loose_p binders binders_p] in *.
  assert (Il : incl (as_predicates_r l) pv) by (intros x J; apply I; cbn [as_predicates]; rewrite !in_app_iff; auto).
  assert (Pl : pre V (loose_r l) (binders_r l) (as_predicates_r l)).
  { eapply pre_left; [exact P|]. intros x J. cbn [as_predicates]. rewrite !in_app_iff; auto. }
  destruct (HR V l' V1 El Tl Il Pl) as (Sh & K & Lo & Ob).
  assert (Nv : forall x, In x (numbers_s p) -> value V x = None).
  { intros x J. destruct (value V x) as [o|] eqn:Ev; [|reflexivity]. exfalso. destruct P as (_ & _ & _ & C).
    destruct (C x o) as (NP & _); [apply in_or_app; auto|exact Ev|]. apply NP. destruct p as [s|v|p q]; cbn [numbers_s] in J.
    - destruct J.
    - cbn [as_predicates]. apply in_or_app. left. exact J.
    - cbn [tame_p numbers_s] in Tp. destruct (numbers_s p ++ numbers_s q); [destruct J|discriminate]. }
  split; [now rewrite app_nil_r|]. split; [|split; [reflexivity|split]].
  - intros x J. apply in_app_or in J as [J|J]; [apply from_left, Lo, J|]. left. split; [apply in_or_app; auto|apply Nv, J].
  - intros e A w. rewrite !truth_simple, (Ob e (agree_left M _ _ _ _ A)). reflexivity.
  - intros z zs x O Z Iz Cl q y c Fx. pose proof (fixes_inv _ _ _ _ _ Fx) as (_ & _ & a' & b' & En & Sides). unfold named in En. injection En as -> ->.
    destruct l as [|l|a l]; try discriminate. destruct l as [|l|b l]; try discriminate. destruct l as [|l|c' l]; try discriminate.
    cbn [own] in O. cbn [String.eqb Ascii.eqb negb orb Bool.eqb] in O. destruct a as [v| | |]; try discriminate. destruct v as [z' f|]; try discriminate.
    apply andb_prop in O as [Oz Ob']. apply Nat.eqb_eq in Oz. subst z'. rewrite apart_spec in Ob'.
    rewrite simple_r_item in El. cbn [simple_t var_number] in El.
    assert (Ea : exists f', (match value V z with Some o => o | None => Some (Var (Bound z f)) end) = Some (Var (Bound x f'))).
    { destruct Z as [[-> Ez]|[f' Ez]]; rewrite Ez; eauto. }
    destruct Ea as [f' Ea]. rewrite Ea in El. destruct (simple_r pv V (Item b Nil)) as [l1 V2] eqn:Eb. cbv beta iota in El. injection El as <- -> ->.
    assert (c = b') as -> . { cbn [fixes] in Fx. destruct q; try discriminate; cbn in Fx; destruct (existsb _ pv); try discriminate; destruct (constant b'); congruence. }
    assert (y = x) as -> . { cbn [fixes] in Fx. destruct q; try discriminate; cbn in Fx; destruct (existsb _ pv); try discriminate; destruct (constant b'); congruence. }
    split; [reflexivity|]. split; [|exists f'; reflexivity].
    intros J.
    assert (Cv : forall v o, In v (loose_t b) -> value V v = Some o -> exists a, o = Some a /\ ~ In x (loose_t a)).
    { intros v o Iv Ev. assert (Iv' : In v (loose_r (Item (Var (Bound z f)) (Item b Nil)) ++ numbers_s (Named "="))) by (cbn; right; rewrite app_nil_r; apply in_or_app; auto).
      destruct (value_full _ _ _ _ _ _ P Iv' Ev) as [a ->]. exists a. split; [reflexivity|]. apply (Cl v a Iv'); [|exact Ev]. intros Jz. apply (Ob' v Jz Iv). }
    assert (Lx : from V (loose_t b) x).
    { destruct HI as (_ & Hb & _). rewrite simple_r_item in Eb. destruct (simple_t pv V b) as [o V3] eqn:Et. cbn [simple_r] in Eb. cbv beta iota in Eb.
      destruct (Hb V o V3 Et) as (b0 & -> & _ & Lb & _).
      - cbn [tame_r tame_t andb] in Tl. now rewrite andb_true_r in Tl.
      - intros u Iu. apply Il. cbn. now rewrite app_nil_r.
      - cbn [loose_r binders_r as_predicates_r loose_t binders_t as_predicates_t app var_number] in Pl. rewrite !app_nil_r in Pl.
        apply (pre_right V V [z] (loose_t b) [] (binders_t b) _ _ Pl (kept_refl V)), incl_refl.
      - injection Eb as <- _. apply Lb, J. }
    destruct Lx as [[J' _]|(v & a & Iv & Ev & Jx)]; [apply (Ob' x Iz J')|]. destruct (Cv v (Some a) Iv Ev) as (a0 & [= <-] & N). contradiction.
Qed.

Lemma says_abstract_case A l : q_row l -> bodied q_form A -> q_form (Says (Abstract A) l).
Proof.
  intros HR [HA HB] V F' V' E T I P. cbn [tame tame_p] in T. apply andb_prop in T as [T Ts]. apply andb_prop in T as [TA Tl].
  cbn [loose loose_p binders binders_p] in P |- *.
  assert (Il : incl (as_predicates_r l) pv) by (intros x J; apply I; cbn [as_predicates]; rewrite !in_app_iff; auto).
  assert (IA : incl (as_predicates A) pv) by (intros x J; apply I; cbn [as_predicates as_predicates_p]; rewrite !in_app_iff; auto).
  destruct (params A) as [|k] eqn:PA.
  - rewrite simple_says_abstract in E. destruct (simple_r pv V l) as [l' V1] eqn:El. rewrite PA in E. cbn [Nat.eqb orb] in E.
    destruct (simple pv V1 A) as [A' V2] eqn:EA. injection E as <- <-.
    assert (Pl : pre V (loose_r l) (binders_r l) (as_predicates_r l)).
    { eapply pre_left; [exact P|]. intros x J. cbn [as_predicates]. rewrite !in_app_iff; auto. }
    destruct HR as [HR _]. destruct (HR V l' V1 El Tl Il Pl) as (Sh & K & Lo & Ob).
    assert (P1 : pre V1 (loose A) (binders A) (as_predicates A)).
    { eapply pre_right; [exact P|exact K|]. intros x J. cbn [as_predicates as_predicates_p]. rewrite !in_app_iff; auto. }
    assert (TA0 : tame A = true) by (destruct A as [| |[]|]; try exact TA; discriminate).
    destruct (HA V1 A' V2 EA TA0 IA P1) as (K2 & Lo2 & P2 & Tr & _).
    split; [eapply kept_trans; eauto|]. split; [|split; [reflexivity|split]].
    + intros x J. cbn [loose loose_p] in J. apply in_app_or in J as [J|J]; [apply from_left, Lo, J|]. eapply from_right; [exact P|exact K|apply Lo2, J].
    + intros e Ag w. rewrite !truth_abstract, PA, (Ob e (agree_left M _ _ _ _ Ag)). cbn [Nat.eqb orb].
      assert (TA' : forall w, truth M e A w <-> truth M e A' w) by (intros w'; apply Tr; eapply agree_right; eauto).
      rewrite P2. cbn [Nat.eqb orb]. apply (law_clause_of M law), TA'.
    + intros z zs x O Z Iz Cl q y c Fx. apply fixes_inv in Fx as (_ & _ & a & b & Ef & _). discriminate.
  - destruct A as [| |q y f G|]; try discriminate. destruct q; try discriminate. cbn [params] in PA. injection PA as PA.
    apply andb_prop in Ts as [Ty Tl2]. assert (PG : params G = 0) by (destruct G as [| |[]|]; try reflexivity; discriminate TA).
    apply not_among in Ty. destruct (Nat.eq_dec (given_args l) 1) as [G1|G1].
    2: { assert (Pl : pre V (loose_r l) (binders_r l) (as_predicates_r l)).
      { eapply pre_left; [exact P|]. intros x J. cbn [as_predicates]. rewrite !in_app_iff; auto. }
      rewrite simple_says_abstract in E. destruct (simple_r pv V l) as [l' V1] eqn:El. destruct HR as [HR _]. destruct (HR V l' V1 El Tl Il Pl) as (Sh & K & Lo & Ob).
      destruct (shape_whole _ _ Sh) as [Wh Gv].
      cbn [params] in E. rewrite PG, Gv in E. replace (given_args l =? 1) with false in E by (symmetry; now apply Nat.eqb_neq). cbn [Nat.eqb orb negb] in E. rewrite simple_binds in E.
      destruct (simple pv V1 G) as [G' V2] eqn:EG. injection E as <- <-.
      assert (P1 : pre V1 (loose (Binds QLambda y f G)) (binders (Binds QLambda y f G)) (as_predicates G)).
      { eapply pre_right; [exact P|exact K|]. intros x J. cbn [as_predicates as_predicates_p]. rewrite !in_app_iff; auto. }
      cbn [loose binders] in P1. destruct (HB _ _ _ _ eq_refl V1 G' V2 EG TA IA (pre_under _ _ _ _ _ P1)) as (K2 & Lo2 & P0 & Tr & _).
      split; [eapply kept_trans; [exact K|]; eapply kept_weaken; [|exact K2]; apply incl_tl, incl_refl|]. split; [|split; [reflexivity|split]].
      + intros x J. cbn [loose loose_p] in J. apply in_app_or in J as [J|J]; [apply from_left, Lo, J|]. apply in_without in J as [J Ne].
        eapply from_right; [exact P|exact K|]. eapply from_under; [exact P1|apply Lo2, J|exact Ne].
      + intros e Ag w. rewrite !truth_abstract. cbn [params]. rewrite PG, P0, Wh, Gv, (Ob e (agree_left M _ _ _ _ Ag)).
        replace (given_args l =? 1) with false by (symmetry; now apply Nat.eqb_neq). rewrite andb_false_r. cbn [Nat.eqb orb negb].
        apply (law_clause_of M law). intros w'. rewrite !truth_binds. apply (law_bound M law). intros d w2. apply Tr. eapply (agree_under M law); [exact P1|]. eapply agree_right; eauto.
      + intros z zs x O Z Iz Cl q u c Fx. apply fixes_inv in Fx as (_ & _ & a & b & Ef & _). discriminate. }
    destruct l as [|l|a l]; try discriminate. destruct l; try discriminate. cbn [tame_r] in Tl. rewrite andb_true_r in Tl.
    cbn [loose_r loose_p loose binders_r binders_p binders as_predicates_r as_predicates as_predicates_p] in P, Il, IA |- *. rewrite app_nil_r in Il.
    assert (P' : pre V ((loose_t a ++ []) ++ without y (loose G)) ((binders_t a ++ []) ++ y :: binders G) (as_predicates G ++ as_predicates_t a)).
    { destruct P as (X1 & X2 & X3 & X4). split; [exact X1|]. split; [exact X2|]. split; [exact X3|]. intros x o J Ev. destruct (X4 x o J Ev) as (N & R).
      split; [|exact R]. intros J'. apply N. rewrite !in_app_iff. apply in_app_or in J' as [J'|J']; auto. }
    destruct (says_lambda y f G a HR (HB _ _ _ _ eq_refl) PG V F' V' E Tl TA Ty Il IA P') as (a' & V1 & El & EG & K & P1 & P2 & Na & La & Da).
    destruct (HB _ _ _ _ eq_refl _ F' V' EG TA IA P2) as (K2 & Lo2 & P0 & Tr & Ow).
    assert (Lf : forall x, In x (loose F') -> x <> y /\ from V ((loose_t a ++ []) ++ without y (loose G)) x).
    { intros x J. destruct (from_set _ _ _ _ _ _ _ P1 (Lo2 x J) Na) as [N [Fr|J']]; (split; [exact N|]).
      - eapply from_right; [exact P'|exact K|exact Fr].
      - apply from_left, La, J'. }
    split.
    { intros x N. rewrite K2; [|intros J; apply N, in_or_app; right; now right]. rewrite value_cons. destruct (Nat.eqb_spec y x) as [->|_]; [exfalso; apply N, in_or_app; right; now left|].
      apply K. intros J. apply N, in_or_app. now left. }
    split; [intros x J; apply Lf, J|]. split; [exact P0|]. split.
    { intros e Ag w. rewrite (truth_lambda e y f G a w PG). pose proof (Da e (agree_left M _ _ _ _ Ag)) as Ed.
      rewrite (Tr (at_value M e y (denotes M e a))).
      - apply (truth_without M law). intros J. now apply Lf in J as [J _].
      - apply agree_set; [eapply (agree_under M law); [exact P1|]; eapply agree_right; eauto|exact Na|].
        rewrite (denotes_without M law) by exact Na. unfold at_value. rewrite Nat.eqb_refl. exact Ed. }
    intros z zs x O Z Iz Cl q u c Fx. cbn [own] in O. destruct a as [v| | |]; try discriminate. destruct v as [z' fz|]; try discriminate.
    apply andb_prop in O as [Oz O]. apply Nat.eqb_eq in Oz. subst z'.
    assert (Ea : exists f', a' = Var (Bound x f')).
    { rewrite simple_r_item in El. cbn [simple_t simple_r var_number] in El. destruct Z as [[-> Ez]|[f' Ez]]; rewrite Ez in El; injection El as <- _; eauto. }
    assert (V1 = V) as ->. { rewrite simple_r_item in El. cbn [simple_t simple_r] in El. cbv beta iota in El. now injection El. }
    destruct Ea as [f' ->]. refine (Ow y (z :: zs) x O _ _ _ q u c Fx).
    + right. exists f'. rewrite value_cons, Nat.eqb_refl. reflexivity.
    + now right.
    + intros v b Iv Nv. rewrite value_cons. destruct (Nat.eqb_spec y v) as [->|Ne]; [exfalso; apply Nv; now left|]. apply Cl.
      * apply in_or_app. right. apply in_without. auto.
      * intros Jv. apply Nv. now right.
Qed.

Lemma limits_case q x f R G : q_form R -> q_form G -> q_form (Limits q x f R G).
Proof.
  intros HR HG V F' V' E T I P. rewrite simple_limits in E. destruct (simple pv V R) as [R' V1] eqn:ER.
  cbn [tame] in T. apply andb_prop in T as [T To]. apply andb_prop in T as [TR TG]. cbn [loose binders as_predicates] in *.
  pose proof (pre_under _ _ _ _ _ P) as PU.
  assert (PR : pre V (loose R) (binders R) (as_predicates R)) by (eapply pre_left; [exact PU|]; apply incl_appl, incl_refl).
  assert (IR : incl (as_predicates R) pv) by (intros u J; apply I, in_or_app; auto).
  assert (IG : incl (as_predicates G) pv) by (intros u J; apply I, in_or_app; auto).
  destruct (HR V R' V1 ER TR IR PR) as (K & Lo & _ & Tr & Ow).
  assert (PG : pre V1 (loose G) (binders G) (as_predicates G)) by (eapply pre_right; [exact PU|exact K|]; apply incl_appr, incl_refl).
  assert (AgR : forall e d, agree M V e (without x (loose R ++ loose G)) -> agree M V (at_value M e x d) (loose R)).
  { intros e d A. eapply agree_left. eapply (agree_under M law); eauto. }
  assert (AgG : forall e d, agree M V e (without x (loose R ++ loose G)) -> agree M V1 (at_value M e x d) (loose G)).
  { intros e d A. eapply agree_right; [exact PU|exact K|]. eapply (agree_under M law); eauto. }
  destruct (fixes pv q R') as [[y c]|] eqn:Fx.
  - pose proof (fixes_inv _ _ _ _ _ Fx) as (Q & Npv & _).
    assert (O : own x [] R = true) by (destruct Q; subst q; exact To).
    assert (Vx : value V x = None) by (destruct P as (_ & _ & X & _); apply X; now left).
    destruct (Ow x [] x O) with (q := q) (y := y) (c := c) as (-> & Nc & f' & ->); [left; auto|now left| |exact Fx|].
    { intros v a Iv Nv Ev. destruct P as (_ & _ & _ & C). destruct (C v (Some a)) as (_ & a' & [= <-] & X); [apply in_without; split; [apply in_or_app; auto|intros ->; apply Nv; now left]|exact Ev|]. apply X. now left. }
    assert (P1 : pre V1 (without x (loose G)) (x :: binders G) (as_predicates G)).
    { destruct PG as (X1 & X2 & X3 & X4). destruct P as (N & D & Kx & C). apply NoDup_cons_iff in N as [Nx N]. assert (Vx1 : value V1 x = None) by (rewrite K; [exact Vx|intros J; apply Nx, in_or_app; auto]).
      split; [constructor; [intros J; apply Nx, in_or_app; auto|exact X1]|]. split; [|split].
      - intros u Iu [->|J]; [now apply in_without in Iu as [_ X]|]. apply in_without in Iu as [Iu _]. apply (X2 u); auto.
      - intros u [<-|J]; [exact Vx1|auto].
      - intros u o Iu Ev. apply in_without in Iu as [Iu Ne]. rewrite K in Ev.
        + destruct (C u o) as (NP & a & -> & X); [apply in_without; split; [apply in_or_app; auto|auto]|exact Ev|].
          split; [intros J; apply NP, in_or_app; auto|]. exists a. split; [reflexivity|]. intros z [<-|J]; apply X; [now left|right; apply in_or_app; auto].
        + intros J. apply (D u); [apply in_without; split; [apply in_or_app; auto|auto]|right; apply in_or_app; auto]. }
    assert (Fc : forall u, In u (loose_t c) -> from V (without x (loose R ++ loose G)) u).
    { intros u J. eapply from_under; [exact P|apply from_left, Lo; eapply fixes_loose; eauto|intros ->; contradiction]. }
    assert (Fresh : forall z, In z (x :: binders R ++ binders G) -> ~ In z (loose_t c)).
    { intros z J J'. destruct P as (_ & D & _ & C). destruct (Fc z J') as [[Iz _]|(v & a & Iv & Ev & Ja)]; [apply (D z Iz J)|].
      destruct (C v (Some a) Iv Ev) as (_ & a' & [= <-] & X). apply (X z J Ja). }
    assert (P2 : pre ((x, Some c) :: V1) (loose G) (binders G) (as_predicates G)).
    { apply pre_set; [exact PG| | |].
      - destruct P1 as (N & _). now apply NoDup_cons_iff in N.
      - intros J. apply Npv, IG, J.
      - intros z J. apply Fresh. right. apply in_or_app. auto. }
    destruct (HG _ F' V' E TG IG P2) as (K2 & Lo2 & P0 & Tr2 & Ow2).
    assert (Lf : forall u, In u (loose F') -> u <> x /\ from V (without x (loose R ++ loose G)) u).
    { intros u J. destruct (from_set _ _ _ _ _ _ _ P1 (Lo2 u J) Nc) as [N [Fr|J']]; (split; [exact N|]); [|apply Fc, J'].
      eapply from_under; [exact P| |exact N]. eapply from_right; [exact PU|exact K|]. destruct Fr as [[J' X]|(v & a & J' & X)]; apply in_without in J' as [J' _]; [left|right; exists v, a]; auto. }
    split; [|split; [|split; [exact P0|split]]].
    + intros u N. rewrite K2; [|intros J; apply N; right; apply in_or_app; auto]. rewrite value_cons. destruct (Nat.eqb_spec x u) as [->|_]; [exfalso; apply N; now left|].
      apply K. intros J. apply N. right. apply in_or_app. auto.
    + intros u J. apply Lf, J.
    + intros e A w. rewrite truth_limits. rewrite (law_only M law q f (denotes M e c)); [|exact Q|].
      * rewrite (Tr2 (at_value M e x (denotes M e c))).
        -- apply (truth_without M law). intros J. now apply Lf in J as [J _].
        -- apply agree_set; [apply AgG, A|exact Nc|]. rewrite (denotes_without M law) by exact Nc. unfold at_value. now rewrite Nat.eqb_refl.
      * intros d w'. rewrite (Tr _ (AgR e d A)). unfold named. rewrite truth_simple, !objects_item. cbn [property_holds objects]. rewrite (law_equal M law).
        rewrite (denotes_without M law c) by exact Nc. cbn [denotes var_number]. unfold at_value. rewrite Nat.eqb_refl. reflexivity.
    + intros z zs u Oz Z Iz Cl q' y' c' Fx'. cbn [own] in Oz. apply orb_prop in Oz as [Oc|Oz]; [rewrite (simple_calm pv _ Oc _ _ _ q' E) in Fx'; discriminate|].
      apply andb_prop in Oz as [Oa Oz]. rewrite apart_spec in Oa.
      assert (Nx : ~ In x (z :: zs)) by (intros J; apply (Oa x J); now left).
      assert (Zz : value ((x, Some c) :: V1) z = value V z).
      { rewrite value_cons. destruct (Nat.eqb_spec x z) as [->|_]; [exfalso; apply Nx; now left|]. apply K. intros J. apply (Oa z); [now left|right; apply in_or_app; auto]. }
      refine (Ow2 z zs u Oz _ Iz _ q' y' c' Fx').
      * destruct Z as [[-> Z]|[f0 Z]]; [left; split; [reflexivity|now rewrite Zz]|right; exists f0; now rewrite Zz].
      * intros v a Iv Nv. rewrite value_cons. destruct (Nat.eqb_spec x v) as [->|Ne].
        -- intros [= <-] J. destruct (Lo u) as [[J' _]|(v' & b & J' & Ev & Jb)]; [eapply fixes_loose; eauto| |].
           ++ apply (Oa u Iz). right. apply in_or_app. auto.
           ++ destruct (Nat.eq_dec v' v) as [->|Ne']; [congruence|].
              apply (Cl v' b); [apply in_without; split; [apply in_or_app; auto|auto]| |exact Ev|exact Jb]. intros Jz. apply (Oa v' Jz). right. apply in_or_app. auto.
        -- intros Ev. assert (Iv' : In v (without x (loose R ++ loose G))) by (apply in_without; split; [apply in_or_app; auto|auto]).
           rewrite K in Ev; [apply (Cl v a Iv' Nv Ev)|]. intros J. destruct P as (_ & D & _). apply (D v Iv'). right. apply in_or_app. auto.
  - destruct (simple pv V1 G) as [G' V2] eqn:EG. injection E as <- <-. destruct (HG V1 G' V2 EG TG IG PG) as (K2 & Lo2 & _ & Tr2 & _).
    split; [|split; [|split; [reflexivity|split]]].
    + eapply kept_weaken; [|eapply kept_trans; eauto]. apply incl_tl, incl_refl.
    + intros u J. cbn [loose] in J. apply in_without in J as [J Ne]. eapply from_under; [exact P| |exact Ne].
      apply in_app_or in J as [J|J]; [apply from_left, Lo, J|eapply from_right; [exact PU|exact K|apply Lo2, J]].
    + intros e A w. rewrite !truth_limits. apply (law_limited M law); intros d w'; [apply Tr, AgR, A|apply Tr2, AgG, A].
    + intros z zs u _ _ _ _ q' y' c' Fx'. apply fixes_inv in Fx' as (_ & _ & a & b & Ef & _). discriminate.
Qed.

Theorem simple_truth :
  (forall F, bodied q_form F) /\ (forall p, q_prop p) /\ (forall a, q_term a) /\ (forall l, q_row l /\ q_items l).
Proof.
  apply forms_ind.
  - intros p Hp l [Hl Hi]. split; [|discriminate]. destruct p as [p|A]; [now apply says_simple_case|now apply says_abstract_case].
  - intros c F [HF _] G [HG _]. split; [|discriminate]. intros V F' V' E T I P. rewrite simple_joined in E.
    destruct (simple pv V F) as [F1 V1] eqn:EF. destruct (simple pv V1 G) as [G1 V2] eqn:EG. injection E as <- <-.
    cbn [tame] in T. apply andb_prop in T as [TF TG]. cbn [loose binders as_predicates] in *.
    destruct (HF V F1 V1 EF TF) as (K & Lo & _ & Tr & _); [intros u J; apply I, in_or_app; auto|eapply pre_left; [exact P|]; apply incl_appl, incl_refl|].
    destruct (HG V1 G1 V2 EG TG) as (K2 & Lo2 & _ & Tr2 & _); [intros u J; apply I, in_or_app; auto|eapply pre_right; [exact P|exact K|]; apply incl_appr, incl_refl|].
    split; [eapply kept_trans; eauto|]. split; [|split; [reflexivity|split]].
    + intros u J. apply in_app_or in J as [J|J]; [apply from_left, Lo, J|eapply from_right; [exact P|exact K|apply Lo2, J]].
    + intros e A w. rewrite !truth_joined. apply (law_connected M law); [apply Tr; eapply agree_left, A|apply Tr2; eapply agree_right; eauto].
    + intros z zs u _ _ _ _ q' y' c' Fx'. apply fixes_inv in Fx' as (_ & _ & a & b & Ef & _). discriminate.
  - intros q x f G [HG _]. split; [|intros q' x' f' G' [= <- <- <- <-]; exact HG]. intros V F' V' E T I P. rewrite simple_binds in E.
    destruct (simple pv V G) as [G1 V1] eqn:EG. injection E as <- <-. cbn [tame loose binders as_predicates] in *. apply andb_prop in T as [Tq T].
    destruct (HG V G1 V1 EG T I (pre_under _ _ _ _ _ P)) as (K & Lo & _ & Tr & _).
    split; [eapply kept_weaken; [|exact K]; apply incl_tl, incl_refl|]. split; [|split; [destruct q; [reflexivity|discriminate|reflexivity..]|split]].
    + intros u J. apply in_without in J as [J Ne]. eapply from_under; [exact P|apply Lo, J|exact Ne].
    + intros e A w. rewrite !truth_binds. apply (law_bound M law). intros d w'. apply Tr. eapply (agree_under M law); eauto.
    + intros z zs u _ _ _ _ q' y' c' Fx'. apply fixes_inv in Fx' as (_ & _ & a & b & Ef & _). discriminate.
  - intros q x f R [HR _] G [HG _]. split; [now apply limits_case|discriminate].
  - intros p. exact I.
  - intros F H. exact H.
  - intros v V o V' E _ _ P. cbn [simple_t] in E. injection E as <- <-. cbn [loose_t binders_t] in *. destruct (value V (var_number v)) as [o|] eqn:Ev.
    + destruct (value_full _ _ _ _ _ _ P (or_introl eq_refl) Ev) as [a ->]. exists a. split; [reflexivity|]. split; [apply kept_refl|]. split.
      * intros x J. right. exists (var_number v), a. split; [now left|auto].
      * intros e A. cbn [denotes]. apply A; [now left|exact Ev].
    + exists (Var v). split; [reflexivity|]. split; [apply kept_refl|]. split; [|reflexivity]. intros x [<-|[]]. left. split; [now left|exact Ev].
  - intros s f V o V' E _ _ P. cbn in E. injection E as <- <-. eexists. split; [reflexivity|]. split; [apply kept_refl|]. split; [intros x []|reflexivity].
  - intros F [HF _] V o V' E T I P. rewrite simple_that in E. destruct (simple pv V F) as [F' V1] eqn:EF. injection E as <- <-.
    destruct (HF V F' V1 EF T I P) as (K & Lo & _ & Tr & _). exists (That F'). split; [reflexivity|]. split; [exact K|]. split; [exact Lo|].
    intros e A. rewrite !denotes_that. apply (law_clause M law). intros w. now apply Tr.
  - intros l [[_ HM] _] V o V' E T I P. rewrite simple_several in E. destruct (simple_m pv V l) as [l' V1] eqn:EM. injection E as <- <-.
    destruct (HM V l' V1 EM T I P) as (K & Lo & Tr). exists (Several l'). split; [reflexivity|]. split; [exact K|]. split; [exact Lo|].
    intros e A. rewrite !denotes_several. apply (Tr e A []).
  - split; [|exact I]. split.
    + intros V l' V' E _ _ P. injection E as <- <-. split; [reflexivity|]. split; [apply kept_refl|]. split; [intros x []|reflexivity].
    + intros V l' V' E _ _ P. injection E as <- <-. split; [apply kept_refl|]. split; [intros x []|reflexivity].
  - intros l [[HR HM] HI]. split; [|exact HI]. split.
    + intros V l' V' E T I P. rewrite simple_r_gap in E. destruct (simple_r pv V l) as [l1 V1] eqn:El. injection E as <- <-.
      destruct (HR V l1 V1 El T I P) as (Sh & K & Lo & Ob). split; [cbn; now rewrite Sh|]. split; [exact K|]. split; [exact Lo|].
      intros e A. rewrite !objects_gap, (Ob e A). reflexivity.
    + intros V l' V' E T I P. rewrite simple_m_gap in E. exact (HM V l' V' E T I P).
  - intros a Ha l [[HR HM] HI]. split; [|split; [exact Ha|exact HI]]. split.
    + intros V l' V' E T I P. rewrite simple_r_item in E. destruct (simple_t pv V a) as [o V1] eqn:Ea. destruct (simple_r pv V1 l) as [l1 V2] eqn:El. cbv beta iota in E.
      cbn [tame_r] in T. apply andb_prop in T as [Ta Tl]. cbn [loose_r binders_r as_predicates_r] in *.
      destruct (Ha V o V1 Ea Ta) as (a' & -> & K & Lo & De); [intros u J; apply I, in_or_app; auto|eapply pre_left; [exact P|]; apply incl_appl, incl_refl|].
      destruct (HR V1 l1 V2 El Tl) as (Sh & K2 & Lo2 & Ob); [intros u J; apply I, in_or_app; auto|eapply pre_right; [exact P|exact K|]; apply incl_appr, incl_refl|].
      injection E as <- <-. split; [cbn; now rewrite Sh|]. split; [eapply kept_trans; eauto|]. split.
      * intros u J. cbn [loose_r] in J. apply in_app_or in J as [J|J]; [apply from_left, Lo, J|eapply from_right; [exact P|exact K|apply Lo2, J]].
      * intros e A. rewrite !objects_item, (De e (agree_left M _ _ _ _ A)), (Ob e); [reflexivity|]. eapply agree_right; eauto.
    + intros V l' V' E T I P. rewrite simple_m_item in E. destruct (simple_t pv V a) as [o V1] eqn:Ea. destruct (simple_m pv V1 l) as [l1 V2] eqn:El. cbv beta iota in E.
      cbn [tame_r] in T. apply andb_prop in T as [Ta Tl]. cbn [loose_r binders_r as_predicates_r] in *.
      destruct (Ha V o V1 Ea Ta) as (a' & -> & K & Lo & De); [intros u J; apply I, in_or_app; auto|eapply pre_left; [exact P|]; apply incl_appl, incl_refl|].
      destruct (HM V1 l1 V2 El Tl) as (K2 & Lo2 & Ob); [intros u J; apply I, in_or_app; auto|eapply pre_right; [exact P|exact K|]; apply incl_appr, incl_refl|].
      assert (Fr2 : forall u, In u (loose_r l1) -> from V (loose_t a ++ loose_r l) u) by (intros u J; eapply from_right; [exact P|exact K|apply Lo2, J]).
      assert (Fr1 : forall u, In u (loose_t a') -> from V (loose_t a ++ loose_r l) u) by (intros u J; apply from_left, Lo, J).
      assert (Ob' : forall e, agree M V e (loose_t a ++ loose_r l) -> forall k, the_several M (k ++ members M e l) = the_several M (k ++ members M e l1)).
      { intros e A. apply Ob. eapply agree_right; eauto. }
      assert (X : V' = V2 /\ l' = match a' with Several m => row_app m l1 | _ => Item a' l1 end) by (destruct a'; injection E as <- <-; auto).
      destruct X as [-> ->]. split; [eapply kept_trans; eauto|]. split.
      * intros u J. destruct a' as [| | |m]; [| | |rewrite loose_app in J]; apply in_app_or in J as [J|J]; auto.
      * intros e A k. rewrite members_item, (De e (agree_left M _ _ _ _ A)).
        assert (Y : the_several M (k ++ denotes M e a' :: members M e l) = the_several M (k ++ denotes M e a' :: members M e l1)).
        { change (denotes M e a' :: members M e l) with ([denotes M e a'] ++ members M e l). change (denotes M e a' :: members M e l1) with ([denotes M e a'] ++ members M e l1).
          rewrite !app_assoc. apply Ob', A. }
        rewrite Y. destruct a' as [| | |m]; try reflexivity. rewrite denotes_several, (law_several M law), members_app. reflexivity.
Qed.
End Main.

Theorem regular_truth F : regular F = true -> equivalent (simplified F) F.
Proof.
  intros R M law e w. unfold regular in R. apply andb_prop in R as [R A]. apply andb_prop in R as [T D]. apply distinct_spec in D. rewrite apart_spec in A.
  unfold simplified. destruct (simple (as_predicates F) [] F) as [F' V'] eqn:E. destruct (simple_truth M law (as_predicates F)) as (H & _). destruct (H F) as [Q _].
  destruct (Q [] F' V' E T (incl_refl _)) as (_ & _ & _ & Tr & _).
  - split; [exact D|]. split; [exact A|]. split; [reflexivity|discriminate].
  - symmetry. apply Tr. discriminate.
Qed.
