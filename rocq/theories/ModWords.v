(** What attaching a modifier does to the words of a node. *)

From Coq Require Import String List Bool.
From Verif Require Import Base PegSyntax Ast AstInd ModFacts VisitSpec VisitFacts ModSpec.
Import ListNotations.
Open Scope list_scope.
Open Scope res_scope.

Lemma below_trans a b c : below a b -> below b c -> below a c.
Proof. intros H1 H2. induction H2 as [|k n K _ IH]; [exact H1|]. exact (WKid _ k n K IH). Qed.

Lemma below_kid k n : In k (kids n) -> below k n.
Proof. intro K. exact (WKid _ k n K (WSelf k)). Qed.

Lemma below_kid2 k k' n : In k' (kids n) -> In k (kids k') -> below k n.
Proof. intros K1 K2. exact (WKid _ k' n K1 (below_kid k k' K2)). Qed.

Lemma closing_below k n l : below k n -> closing k l -> closing n l.
Proof.
  intros B. apply Forall_impl. intros t (kio & ki & d & H & I). exists kio, ki, d. split; [exact (below_trans _ _ _ H B)|exact I].
Qed.

Lemma bind_ok {A B} (x : res A) (f : A -> res B) v : bind x f = Ok v -> exists a, x = Ok a /\ f a = Ok v.
Proof. destruct x; cbn; try discriminate. eauto. Qed.

Lemma toks_app a b : map tok (a ++ b) = map tok a ++ map tok b.
Proof. apply map_app. Qed.

Section Mod.
Variable m : node.
Notation mn := (mod_node (Some m)).
Notation mw := (mod_word (Some m)).

(** What is inserted after [a], before [b]. *)
Definition inserts (n : node) (a a' : list word) : Prop :=
  exists l1 l2, map tok a = l1 ++ l2 /\ map tok a' = l1 ++ toks m ++ l2 /\ closing n l2.

Lemma inserts_front n x a a' : inserts n a a' -> inserts n (x ++ a) (x ++ a').
Proof.
  intros (l1 & l2 & E & E' & C). exists (map tok x ++ l1), l2. rewrite !map_app, E, E', <- !app_assoc. auto.
Qed.

Lemma inserts_back n b a a' : closing n (map tok b) -> inserts n a a' -> inserts n (a ++ b) (a' ++ b).
Proof.
  intros B (l1 & l2 & E & E' & C). exists l1, (l2 ++ map tok b). rewrite !map_app, E, E', <- !app_assoc.
  split; [reflexivity|]. split; [reflexivity|]. apply Forall_app. auto.
Qed.

Lemma inserts_below k n a a' : below k n -> inserts k a a' -> inserts n a a'.
Proof. intros B (l1 & l2 & E & E' & C). exists l1, l2. split; [exact E|]. split; [exact E'|]. exact (closing_below k n l2 B C). Qed.

Definition pm (n : node) : Prop := forall n', mn n = Ok n' -> inserts n (words n) (words n').
Definition qm (w : word) : Prop := forall w', mw w = Ok w' -> inserts (NWord w) (wwords w) (wwords w').

Lemma map_last_inserts f d d' : (forall x y, f x = Ok y -> mn x = Ok y) -> Forall pm d -> map_last f d = Ok d' ->
  exists k, In k d /\ inserts k (flat_map words d) (flat_map words d').
Proof.
  intros F. revert d'. induction d as [|x d IH]; intros d' H E; [discriminate|]. inversion H as [|? ? Hx Hd]; subst.
  cbn [map_last] in E. destruct d as [|y d].
  - apply bind_ok in E. destruct E as (z & Ez & E). injection E as <-. exists x. split; [left; reflexivity|].
    cbn [flat_map]. rewrite !app_nil_r. exact (Hx z (F _ _ Ez)).
  - apply bind_ok in E. destruct E as (z & Ez & E). injection E as <-.
    destruct (IH z Hd Ez) as (k & K & I). exists k. split; [right; exact K|].
    change (inserts k (words x ++ flat_map words (y :: d)) (words x ++ flat_map words z)). apply inserts_front. exact I.
Qed.

Lemma discourse_inserts d d' : Forall pm d -> discourse_mod mn d = Ok d' ->
  exists k, In k d /\ inserts k (flat_map words d) (flat_map words d').
Proof.
  intros H. apply map_last_inserts; [|exact H]. intros x y. destruct (_ || _)%bool; [auto|discriminate].
Qed.

Lemma terms_inserts d d' : Forall pm d -> terms_mod (Some m) mn d = Ok d' ->
  exists k, In k d /\ inserts k (flat_map words d) (flat_map words d').
Proof. intros H. apply map_last_inserts; auto. Qed.

Ltac kid := cbn [kids]; rewrite ?in_app_iff; cbn [In maybe maybe_word]; tauto.
Ltac fronts := repeat first [apply inserts_front | rewrite app_nil_r].

Lemma mod_inserts : (forall n, pm n) /\ (forall w, qm w).
Proof.
  apply node_word_ind; intros; intros n' E; (first [rewrite mod_node_eq in E|rewrite mod_word_eq in E]);
    repeat match type of E with context [match ?x with Some _ => _ | None => _ end] => is_var x; destruct x; cbn [onO] in * end;
    try (apply bind_ok in E; destruct E as (x & Ex & E); injection E as <-);
    try (cbn [words wwords olist];
         match goal with
         | H : pm ?k, Ex : mod_node _ ?k = Ok ?x |- _ =>
             rewrite ?app_nil_r; fronts; apply (inserts_below k); [|exact (H _ Ex)];
             first [apply below_kid; kid | eapply below_kid2; [left; reflexivity|cbn; tauto]]
         | H : qm ?k, Ex : mod_word _ ?k = Ok ?x |- _ =>
             rewrite ?app_nil_r; fronts; apply (inserts_below (NWord k)); [|exact (H _ Ex)]; 
             first [apply below_kid; kid | eapply below_kid2; [left; reflexivity|cbn; tauto]]
         end).
  - destruct (discourse_inserts _ _ H0 Ex) as (k & K & J). cbn [words]. apply inserts_front.
    apply (inserts_below k); [|exact J]. apply (below_kid2 _ (NDiscourse d)); [kid|exact K].
  - destruct (discourse_inserts _ _ H Ex) as (k & K & J). cbn [words]. apply (inserts_below k); [|exact J].
    apply below_kid. exact K.
  - destruct (terms_inserts _ _ H0 Ex) as (k & K & J). cbn [words olist]. rewrite !app_nil_r. apply inserts_front.
    apply (inserts_below k); [|exact J]. apply (below_kid2 _ (NTerms l)); [kid|exact K].
  - destruct (terms_inserts _ _ H Ex) as (k & K & J). cbn [words]. apply (inserts_below k); [|exact J].
    apply below_kid. exact K.
  - destruct (discourse_inserts _ _ H1 Ex) as (k & K & J). cbn [words]. apply inserts_front.
    apply inserts_back.
    + apply Forall_forall. intros t Ht. exists kio, ki, d. split; [constructor|exact Ht].
    + apply (inserts_below k); [|exact J]. apply (below_kid2 _ (NDiscourse d)); [kid|exact K].
  - assert (B : below r (NCoP k to0 to1 ru l r)).
    { assert (B : below r (NCoP CRaw to0 to1 ru l r)) by (destruct to0; apply below_kid; kid).
      destruct k; try (eapply WKid; [left; reflexivity|exact B]). exact B. }
    pose proof (inserts_below _ _ _ _ B (H3 _ Ex)) as J. destruct to0; cbn [words]; fronts; exact J.
  - assert (B : below st (NLU k lu st)).
    { destruct k; [apply below_kid; kid| | |]; (eapply below_kid2; [left; reflexivity|kid]). }
    cbn [words]. apply inserts_front. exact (inserts_below _ _ _ _ B (H0 _ Ex)).
  - cbn [words]. exact (H _ Ex).
  - cbn [wwords olist]. change (Wd t s e (Some n) :: words n) with ([Wd t s e (Some n)] ++ words n).
    change (Wd t s e (Some x) :: words x) with ([Wd t s e (Some x)] ++ words x).
    assert (J : inserts (NWord (Wd t s e (Some n))) (words n) (words x)).
    { apply (inserts_below n); [apply below_kid; left; reflexivity|exact (H _ Ex)]. }
    destruct (inserts_front _ [Wd t s e (Some n)] _ _ J) as (l1 & l2 & E1 & E2 & C). exists l1, l2. auto.
  - injection E as <-. exists [(t, s, e)], []. cbn [wwords olist map app]. unfold toks. rewrite app_nil_r.
    split; [reflexivity|]. split; [reflexivity|]. constructor.
Qed.

(** ** Everything but modifiers stays *)

Lemma map_last_bare (f : node -> res node) d d' : Forall (fun x => forall y, f x = Ok y -> bare y = bare x) d ->
  map_last f d = Ok d' -> map bare d' = map bare d.
Proof.
  revert d'. induction d as [|x d IH]; intros d' H E; [discriminate|]. inversion H as [|? ? Hx Hd]; subst.
  cbn [map_last] in E. destruct d as [|y d]; apply bind_ok in E; destruct E as (z & Ez & E); injection E as <-.
  - cbn [map]. f_equal. exact (Hx z Ez).
  - change (bare x :: map bare z = bare x :: map bare (y :: d)). f_equal. apply IH; assumption.
Qed.

Lemma discourse_bare mm d d' : Forall (fun x => forall y, mod_node mm x = Ok y -> bare y = bare x) d ->
  discourse_mod (mod_node mm) d = Ok d' -> map bare d' = map bare d.
Proof.
  intro H. apply map_last_bare. eapply Forall_impl; [|exact H]. intros x Hx y. destruct (_ || _)%bool; [apply Hx|discriminate].
Qed.

Lemma terms_bare mm d d' : Forall (fun x => forall y, mod_node mm x = Ok y -> bare y = bare x) d ->
  terms_mod mm (mod_node mm) d = Ok d' -> map bare d' = map bare d.
Proof. intro H. destruct mm; [apply map_last_bare; exact H|]. intro E. injection E as <-. reflexivity. Qed.

Lemma mod_bare mm :
  (forall n n', mod_node mm n = Ok n' -> bare n' = bare n) /\ (forall w w', mod_word mm w = Ok w' -> bare_word w' = bare_word w).
Proof.
  apply (node_word_ind (fun n => forall n', mod_node mm n = Ok n' -> bare n' = bare n)
           (fun w => forall w', mod_word mm w = Ok w' -> bare_word w' = bare_word w)); intros ??;
    intros; match goal with E : _ = Ok _ |- _ => rename E into E' end;
    (first [rewrite mod_node_eq in E'|rewrite mod_word_eq in E']);
    repeat match type of E' with context [match ?x with Some _ => _ | None => _ end] => is_var x; destruct x; cbn [onO] in * end;
    try (apply bind_ok in E'; destruct E' as (x & Ex & E'));
    injection E' as <-; cbn [bare option_map]; try reflexivity; f_equal; try reflexivity;
    try (first [apply discourse_bare in Ex | apply terms_bare in Ex]; [congruence|assumption]);
    try (match goal with H : forall n', _ -> _ |- _ => apply H in Ex end); try congruence.
Qed.

Lemma mod_none : (forall n n', mod_node None n = Ok n' -> n' = n) /\ (forall w, mod_word None w = Ok w).
Proof.
  assert (W : forall w, mod_word None w = Ok w) by (intros []; reflexivity). split; [|exact W].
  assert (L : forall f d d', Forall (fun x => forall y, mod_node None x = Ok y -> y = x) d ->
    (forall x y, f x = Ok y -> mod_node None x = Ok y) -> map_last f d = Ok d' -> d' = d).
  { intros f d d' H F. revert d'. induction d as [|x d IH]; intros d' E; [discriminate|]. inversion H as [|? ? Hx Hd]; subst.
    cbn [map_last] in E. destruct d as [|y d]; apply bind_ok in E; destruct E as (z & Ez & E); injection E as <-.
    - f_equal. exact (Hx z (F _ _ Ez)).
    - f_equal. apply IH; assumption. }
  assert (D : forall d d', Forall (fun x => forall y, mod_node None x = Ok y -> y = x) d ->
    discourse_mod (mod_node None) d = Ok d' -> d' = d).
  { intros d d' H. apply L; [exact H|]. intros x y. destruct (_ || _)%bool; [auto|discriminate]. }
  apply (node_word_ind (fun n => forall n', mod_node None n = Ok n' -> n' = n) (fun _ => True)); intros; try exact I;
    match goal with E : _ = Ok _ |- _ => rename E into E' end; rewrite mod_node_eq, ?W in E';
    repeat match type of E' with context [match ?x with Some _ => _ | None => _ end] => is_var x; destruct x; cbn [onO] in * end;
    rewrite ?W in E'; try (apply bind_ok in E'; destruct E' as (x & Ex & E'));
    injection E' as <-; f_equal;
    try (apply D in Ex; [congruence|assumption]); try (cbn in Ex; congruence);
    try (match goal with H : forall n', _ -> _ |- _ => apply H in Ex end; congruence).
Qed.

Lemma mod_grafts : forall n n', mn n = Ok n' -> grafted m n n' /\ bare n' = bare n.
Proof.
  intros n n' E. split; [exact (proj1 mod_inserts n n' E)|exact (proj1 (mod_bare (Some m)) n n' E)].
Qed.

Lemma mod_appends : forall n n', mn n = Ok n' -> (forall kio ki d, ~ below (NParen kio ki d) n) -> toks n' = toks n ++ toks m.
Proof.
  intros n n' E N. destruct (proj1 mod_inserts n n' E) as (l1 & l2 & E1 & E2 & C).
  destruct l2 as [|t l2]; [|inversion C as [|? ? (kio & ki & d & B & _) _]; contradiction (N kio ki d B)].
  unfold toks. rewrite app_nil_r in *. rewrite E1, E2. reflexivity.
Qed.
End Mod.
