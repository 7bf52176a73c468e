(** Facts about the truth of formulas: it depends on loose variables only, and how the
    conditions of simplification pass to parts. *)

From Coq Require Import String NArith List Bool Arith Lia.
From Verif Require Import Base PegSyntax Ast AstSorts Logic LogicWords LogicSpec ScopeSpec Meaning Clauses ClauseHeap Truth.
Import ListNotations.
Open Scope string_scope.
Open Scope list_scope.
Open Scope nat_scope.

Lemma in_without x y l : In x (without y l) <-> In x l /\ x <> y.
Proof.
  unfold without. rewrite filter_In. split; intros [I E]; split; auto.
  - intros ->. now rewrite Nat.eqb_refl in E.
  - destruct (Nat.eqb_spec x y); [contradiction|reflexivity].
Qed.
Lemma among_in l x : among l x = true <-> In x l.
Proof.
  unfold among. rewrite existsb_exists. split; [intros (y & I & E); apply Nat.eqb_eq in E; now subst|intros I; exists x; split; [exact I|apply Nat.eqb_refl]].
Qed.
Lemma not_among l x : negb (among l x) = true <-> ~ In x l.
Proof.
  rewrite <- among_in. destruct (among l x); cbn; split; congruence.
Qed.
Lemma apart_spec l m : apart l m = true <-> forall x, In x l -> ~ In x m.
Proof.
  unfold apart. rewrite forallb_forall. split; intros A x I; [apply not_among, A, I|apply not_among, A, I].
Qed.
Lemma distinct_spec l : distinct l = true -> NoDup l.
Proof.
  induction l as [|x l IH]; cbn; [constructor|]. intros E. apply andb_prop in E as [A D]. constructor; [now apply not_among|auto].
Qed.

(** The body of the lambda in front. *)
Definition bodied (P : form -> Prop) (F : form) : Prop := P F /\ forall q x f G, F = Binds q x f G -> P G.

Section Coincidence.
Variable M : structure.
Variable law : lawful M.

Lemma truth_simple e p l w : truth M e (Says (Simple p) l) w = property_holds M e p (objects M e l) w.
Proof. reflexivity. Qed.
Lemma truth_abstract e A l w : truth M e (Says (Abstract A) l) w =
  if (params A =? 0) || negb (whole l && (given_args l =? params A)) then is_clause_of M (truth M e A) (objects M e l) w
  else applied M (truth M) (params A) (objects M e l) e A w.
Proof. cbn. destruct ((params A =? 0) || negb (whole l && (given_args l =? params A))); reflexivity. Qed.

Lemma denotes_several e l : denotes M e (Several l) = the_several M (members M e l).
Proof. reflexivity. Qed.
Lemma denotes_that e F : denotes M e (That F) = the_clause M (truth M e F).
Proof. reflexivity. Qed.
Lemma objects_gap e l : objects M e (Gap l) = None :: objects M e l.
Proof. reflexivity. Qed.
Lemma objects_item e a l : objects M e (Item a l) = Some (denotes M e a) :: objects M e l.
Proof. reflexivity. Qed.
Lemma members_gap e l : members M e (Gap l) = members M e l.
Proof. reflexivity. Qed.
Lemma members_item e a l : members M e (Item a l) = denotes M e a :: members M e l.
Proof. reflexivity. Qed.
Lemma truth_joined e c F G w : truth M e (Joined c F G) w = connected M c (truth M e F w) (truth M e G w).
Proof. reflexivity. Qed.
Lemma truth_binds e q x f G w : truth M e (Binds q x f G) w = bound_by M q f (fun d => truth M (at_value M e x d) G) w.
Proof. reflexivity. Qed.
Lemma truth_limits e q x f R G w : truth M e (Limits q x f R G) w =
  limited_by M q f (fun d => truth M (at_value M e x d) R) (fun d => truth M (at_value M e x d) G) w.
Proof. reflexivity. Qed.

Definition same_on (l : list nat) (e e' : assignment M) : Prop := forall x, In x l -> e x = e' x.
Lemma same_under x d l e e' : same_on (without x l) e e' -> same_on l (at_value M e x d) (at_value M e' x d).
Proof.
  intros S y I. unfold at_value. destruct (Nat.eqb_spec y x); [reflexivity|]. apply S, in_without. auto.
Qed.
Lemma same_left l m e e' : same_on (l ++ m) e e' -> same_on l e e'.
Proof. intros S x I. apply S, in_or_app. auto. Qed.
Lemma same_right l m e e' : same_on (l ++ m) e e' -> same_on m e e'.
Proof. intros S x I. apply S, in_or_app. auto. Qed.

Lemma property_same p : forall e e', same_on (numbers_s p) e e' -> property_holds M e p = property_holds M e' p.
Proof.
  induction p as [s|v|p IHp q IHq]; intros e e' S; cbn [property_holds numbers_s] in *; [reflexivity| |].
  - rewrite (S (var_number v)); [reflexivity|now left].
  - rewrite (IHp e e' (same_left _ _ _ _ S)), (IHq e e' (same_right _ _ _ _ S)). reflexivity.
Qed.

Definition c_form (F : form) : Prop := forall e e', same_on (loose F) e e' -> forall w, truth M e F w <-> truth M e' F w.
Definition c_applied (F : form) : Prop :=
  forall k l e e', same_on (loose F) e e' -> forall w, applied M (truth M) k l e F w <-> applied M (truth M) k l e' F w.
Lemma truth_same_all :
  (forall F, c_form F /\ c_applied F) /\
  (forall p, match p with Simple _ => True | Abstract F => c_form F /\ c_applied F end) /\
  (forall a e e', same_on (loose_t a) e e' -> denotes M e a = denotes M e' a) /\
  (forall l e e', same_on (loose_r l) e e' -> objects M e l = objects M e' l /\ members M e l = members M e' l).
Proof.
  apply forms_ind.
  - intros p Hp l Hl. assert (X : c_form (Says p l)).
    { intros e e' S w. cbn [loose] in S. destruct (Hl e e' (same_left _ _ _ _ S)) as [O _]. apply same_right in S. destruct p as [p|A]; cbn [loose_p] in *.
      - rewrite !truth_simple, O, (property_same p e e' S). reflexivity.
      - destruct Hp as [CA CP]. rewrite !truth_abstract, O. destruct ((params A =? 0) || negb (whole l && (given_args l =? params A))).
        + apply (law_clause_of M law). intros w'. now apply CA.
        + now apply CP. }
    split; [exact X|]. intros k m e e' S w. destruct k; apply X, S.
  - intros c F [HF _] G [HG _]. assert (X : c_form (Joined c F G)).
    { intros e e' S w. cbn [truth loose] in *. apply (law_connected M law); [apply HF; eapply same_left, S|apply HG; eapply same_right, S]. }
    split; [exact X|]. intros k m e e' S w. destruct k; apply X, S.
  - intros q x f G [HG HA]. assert (X : c_form (Binds q x f G)).
    { intros e e' S w. cbn [truth loose] in *. apply (law_bound M law). intros d w'. apply HG, same_under, S. }
    split; [exact X|]. intros k m e e' S w. destruct k as [|k]; [apply X, S|]. destruct m as [|[d|] m]; try (apply X, S).
    cbn [applied]. apply HA, same_under, S.
  - intros q x f R [HR _] G [HG _]. assert (X : c_form (Limits q x f R G)).
    { intros e e' S w. cbn [truth loose] in *. apply (law_limited M law); intros d w'; [apply HR; eapply same_left, same_under, S|apply HG; eapply same_right, same_under, S]. }
    split; [exact X|]. intros k m e e' S w. destruct k; apply X, S.
  - intros p. exact I.
  - intros F H. exact H.
  - intros v e e' S. cbn. apply S. now left.
  - reflexivity.
  - intros F [H _] e e' S. cbn [loose_t] in *. rewrite !denotes_that. apply (law_clause M law). intros w. now apply H.
  - intros l H e e' S. cbn [loose_t] in *. now rewrite !denotes_several, (proj2 (H e e' S)).
  - intros e e' _. split; reflexivity.
  - intros l H e e' S. cbn [loose_r] in *. rewrite !objects_gap, !members_gap. destruct (H e e' S) as [-> ->]. split; reflexivity.
  - intros a Ha l H e e' S. cbn [loose_r] in *. rewrite !objects_item, !members_item. destruct (H e e' (same_right _ _ _ _ S)) as [-> ->]. rewrite (Ha e e' (same_left _ _ _ _ S)). split; reflexivity.
Qed.
Lemma truth_same F e e' : same_on (loose F) e e' -> forall w, truth M e F w <-> truth M e' F w.
Proof. apply truth_same_all. Qed.
Lemma denotes_same a e e' : same_on (loose_t a) e e' -> denotes M e a = denotes M e' a.
Proof. apply truth_same_all. Qed.
Lemma truth_without F e x d : ~ In x (loose F) -> forall w, truth M (at_value M e x d) F w <-> truth M e F w.
Proof.
  intros N. apply truth_same. intros y I. unfold at_value. destruct (Nat.eqb_spec y x); [now subst|reflexivity].
Qed.
Lemma denotes_without a e x d : ~ In x (loose_t a) -> denotes M (at_value M e x d) a = denotes M e a.
Proof.
  intros N. apply denotes_same. intros y I. unfold at_value. destruct (Nat.eqb_spec y x); [now subst|reflexivity].
Qed.

Lemma members_app m l e : members M e (row_app m l) = members M e m ++ members M e l.
Proof. induction m as [|m IH|a m IH]; cbn [row_app app]; [reflexivity|exact IH|now rewrite !members_item, IH]. Qed.
End Coincidence.

(** ** Conditions on values *)

Lemma value_cons y o V x : value ((y, o) :: V) x = if y =? x then Some o else value V x.
Proof. unfold value. cbn. now destruct (y =? x). Qed.
Lemma loose_app m l : loose_r (row_app m l) = loose_r m ++ loose_r l.
Proof. induction m as [|m IH|a m IH]; cbn [row_app loose_r app]; [reflexivity|exact IH|now rewrite IH, app_assoc]. Qed.

(** [L] are the loose variables, [B] those that are bound, [P] those that are predicates. *)
Definition pre (V : values) (L B P : list nat) : Prop :=
  NoDup B /\ (forall x, In x L -> ~ In x B) /\ (forall x, In x B -> value V x = None) /\
  (forall x o, In x L -> value V x = Some o -> ~ In x P /\ exists a, o = Some a /\ forall z, In z B -> ~ In z (loose_t a)).
(** Values of other variables than [B] have not changed. *)
Definition kept (B : list nat) (V V' : values) : Prop := forall x, ~ In x B -> value V' x = value V x.
(** What can be loose after simplification. *)
Definition from (V : values) (L : list nat) (x : nat) : Prop :=
  (In x L /\ value V x = None) \/ exists y a, In y L /\ value V y = Some (Some a) /\ In x (loose_t a).

Lemma kept_trans B1 B2 V V1 V2 : kept B1 V V1 -> kept B2 V1 V2 -> kept (B1 ++ B2) V V2.
Proof. intros K K' x N. rewrite K', K; [reflexivity| |]; intros I; apply N, in_or_app; auto. Qed.
Lemma kept_weaken B B' V V' : incl B B' -> kept B V V' -> kept B' V V'.
Proof. intros I K x N. apply K. intros J. apply N, I, J. Qed.

Lemma pre_under V L B P x : pre V (without x L) (x :: B) P -> pre V L B P.
Proof.
  intros (N & D & K & C). apply NoDup_cons_iff in N as [Nx N]. split; [exact N|]. split; [|split].
  - intros y I J. destruct (Nat.eq_dec y x) as [->|E]; [contradiction|]. apply (D y); [apply in_without; auto|now right].
  - intros y I. apply K. now right.
  - intros y o I E. destruct (Nat.eq_dec y x) as [->|NE].
    + rewrite (K x) in E by now left. discriminate.
    + destruct (C y o) as (NP & a & -> & A); [apply in_without; auto|exact E|]. split; [exact NP|]. exists a. split; [reflexivity|]. intros z I'. apply A. now right.
Qed.
Lemma nodup_app_l (A : Type) (l m : list A) : NoDup (l ++ m) -> NoDup l.
Proof. induction l as [|a l IH]; cbn; [constructor|]. rewrite !NoDup_cons_iff. intros [N D]. split; [intros I; apply N, in_or_app; auto|auto]. Qed.
Lemma nodup_app_r (A : Type) (l m : list A) : NoDup (l ++ m) -> NoDup m.
Proof. induction l as [|a l IH]; cbn; [auto|]. rewrite NoDup_cons_iff. intros [_ D]. auto. Qed.
Lemma nodup_app_disjoint (A : Type) (l m : list A) x : NoDup (l ++ m) -> In x l -> ~ In x m.
Proof.
  induction l as [|a l IH]; cbn; [intros _ []|]. rewrite NoDup_cons_iff. intros [N D] [->|I] J; [apply N, in_or_app; auto|]. now apply IH.
Qed.
Lemma pre_left V L1 L2 B1 B2 P P1 : pre V (L1 ++ L2) (B1 ++ B2) P -> incl P1 P -> pre V L1 B1 P1.
Proof.
  intros (N & D & K & C) I. split; [eapply nodup_app_l, N|]. split; [|split].
  - intros x J J'. apply (D x); apply in_or_app; auto.
  - intros x J. apply K, in_or_app. auto.
  - intros x o J E. destruct (C x o) as (NP & a & -> & A); [apply in_or_app; auto|exact E|]. split; [intros X; apply NP, I, X|].
    exists a. split; [reflexivity|]. intros z J'. apply A, in_or_app. auto.
Qed.
Lemma pre_right V V1 L1 L2 B1 B2 P P2 : pre V (L1 ++ L2) (B1 ++ B2) P -> kept B1 V V1 -> incl P2 P -> pre V1 L2 B2 P2.
Proof.
  intros (N & D & K & C) Ke I. split; [eapply nodup_app_r, N|]. split; [|split].
  - intros x J J'. apply (D x); apply in_or_app; auto.
  - intros x J. rewrite Ke; [apply K, in_or_app; auto|]. intros J'. eapply nodup_app_disjoint; eauto.
  - intros x o J E. rewrite Ke in E.
    + destruct (C x o) as (NP & a & -> & A); [apply in_or_app; auto|exact E|]. split; [intros X; apply NP, I, X|].
      exists a. split; [reflexivity|]. intros z J'. apply A, in_or_app. auto.
    + intros J'. apply (D x); apply in_or_app; auto.
Qed.
Lemma pre_set V L B P x a : pre V L B P -> ~ In x B -> ~ In x P -> (forall z, In z B -> ~ In z (loose_t a)) -> pre ((x, Some a) :: V) L B P.
Proof.
  intros (N & D & K & C) NB NP A. split; [exact N|]. split; [exact D|]. split.
  - intros y I. rewrite value_cons. destruct (Nat.eqb_spec x y); [now subst|auto].
  - intros y o I. rewrite value_cons. destruct (Nat.eqb_spec x y) as [<-|NE]; [intros [= <-]; split; [exact NP|eauto]|apply C, I].
Qed.

Lemma from_left V L1 L2 x : from V L1 x -> from V (L1 ++ L2) x.
Proof. intros [[I E]|(y & a & I & E)]; [left|right; exists y, a]; (split; [apply in_or_app; auto|exact E]). Qed.
Lemma from_right V V1 L1 L2 B1 B2 P x : pre V (L1 ++ L2) (B1 ++ B2) P -> kept B1 V V1 -> from V1 L2 x -> from V (L1 ++ L2) x.
Proof.
  intros (_ & D & _ & _) K F.
  assert (X : forall y, In y L2 -> value V1 y = value V y). { intros y I. apply K. intros J. apply (D y); apply in_or_app; auto. }
  destruct F as [[I E]|(y & a & I & E & J)]; [left|right; exists y, a]; (split; [apply in_or_app; auto|]).
  - now rewrite <- X.
  - split; [now rewrite <- X|exact J].
Qed.
Lemma from_under V L B P x z : pre V (without x L) (x :: B) P -> from V L z -> z <> x -> from V (without x L) z.
Proof.
  intros (_ & _ & K & _) [[I E]|(y & a & I & E & J)] N; [left; split; [apply in_without; auto|exact E]|].
  right. exists y, a. split; [|auto]. apply in_without. split; [exact I|]. intros ->. rewrite (K x) in E by now left. discriminate.
Qed.
(** The variable that gets a value goes. *)
Lemma from_set V L B P x a z : pre V (without x L) (x :: B) P -> from ((x, Some a) :: V) L z -> ~ In x (loose_t a) ->
  z <> x /\ (from V (without x L) z \/ In z (loose_t a)).
Proof.
  intros (_ & _ & K & C) F N. destruct F as [[I E]|(y & b & I & E & J)].
  - rewrite value_cons in E. destruct (Nat.eqb_spec x z) as [->|NE]; [discriminate|]. split; [auto|]. left. left. split; [apply in_without; auto|exact E].
  - rewrite value_cons in E. destruct (Nat.eqb_spec x y) as [->|NE].
    + injection E as <-. split; [intros ->; contradiction|now right].
    + assert (I' : In y (without x L)) by (apply in_without; auto). destruct (C y (Some b) I' E) as (_ & b' & Eb & A). injection Eb as <-.
      split; [intros ->; apply (A x); [now left|exact J]|]. left. right. exists y, b. auto.
Qed.

Section Agree.
Variable M : structure.
Variable law : lawful M.
Definition agree (V : values) (e : assignment M) (L : list nat) : Prop :=
  forall x a, In x L -> value V x = Some (Some a) -> e x = denotes M e a.
Lemma agree_left V e L1 L2 : agree V e (L1 ++ L2) -> agree V e L1.
Proof. intros A x a I. apply A, in_or_app. auto. Qed.
Lemma agree_right V V1 e L1 L2 B1 B2 P : pre V (L1 ++ L2) (B1 ++ B2) P -> kept B1 V V1 -> agree V e (L1 ++ L2) -> agree V1 e L2.
Proof.
  intros (_ & D & _ & _) K A x a I. rewrite K; [apply A, in_or_app; auto|]. intros J. apply (D x); apply in_or_app; auto.
Qed.
Lemma agree_under V e L B P x d : pre V (without x L) (x :: B) P -> agree V e (without x L) -> agree V (at_value M e x d) L.
Proof.
  intros (_ & _ & K & C) A y a I E. destruct (Nat.eq_dec y x) as [->|N].
  - rewrite (K x) in E by now left. discriminate.
  - assert (I' : In y (without x L)) by (apply in_without; auto). destruct (C y (Some a) I' E) as (_ & a' & Ea & F). injection Ea as <-.
    rewrite (denotes_without M law) by (apply F; now left). unfold at_value. destruct (Nat.eqb_spec y x); [contradiction|]. now apply A.
Qed.
Lemma agree_set V e L x a : agree V e L -> ~ In x (loose_t a) -> e x = denotes M e a -> agree ((x, Some a) :: V) e L.
Proof.
  intros A N E y b I. rewrite value_cons. destruct (Nat.eqb_spec x y) as [->|NE]; [intros [= <-]; exact E|now apply A].
Qed.
End Agree.
