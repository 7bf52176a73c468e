(** Variables that String names the same are the same. *)

From Coq Require Import Ascii String NArith List Bool Arith Lia Permutation.
From Verif Require Import Base Utf8 Ast Logic LogicWords LogicSpec Interp Simplify LogicString LogicApi OrderFacts NameFacts SeqFacts NameInj ScopeFacts ScopeNum ScopeSimp Shown ShownRead.
Import ListNotations.
Open Scope string_scope.
Open Scope list_scope.
Open Scope nat_scope.

(** ** Numbers *)

Definition once (d : ref) (l : list ref) : Prop := forall pre post, l = pre ++ d :: post -> ~ In d post.
Lemma once_tail d x l : once d (x :: l) -> once d l.
Proof. intros O pre post E. apply (O (x :: pre) post). cbn. now rewrite E. Qed.
Lemma once_filter (f : ref -> bool) l d : NoDup (filter f l) -> f d = true -> once d l.
Proof.
  intros N D pre post -> I. rewrite filter_app in N. cbn [filter] in N. rewrite D in N. apply NoDup_remove_2 in N. apply N, in_or_app. right. apply filter_In. auto.
Qed.

Lemma refers_once : forall l i h h' r d, renumber l i h = Ok h' -> once d l ->
  introduces h d = true -> refers h r d ->
  In r l -> (~ In d l -> number h' r = number h d) /\ (before l d r -> number h' r = number h' d).
Proof.
  induction l as [|x l IH]; intros i h h' r d E N Id R I; [contradiction|].
  destruct (renumber_step _ _ _ _ _ E) as (h1 & i1 & S & E1). assert (B := step_bare _ _ _ _ _ S).
  assert (ND : d <> r) by (intros ->; rewrite (refers_introduces _ _ _ R) in Id; discriminate).
  assert (R1 : refers h1 r d) by (eapply bare_refers; [symmetry; exact B|exact R]).
  assert (Id1 : introduces h1 d = true) by (rewrite (bare_introduces h1 h) by exact B; exact Id).
  assert (N1 := once_tail _ _ _ N).
  assert (Nr : x = r -> number h1 r = number h d).
  { intros ->. destruct S as [h1 J _ _ _|h1 d' R' _ Nx _|_ NR].
    - rewrite (refers_introduces _ _ _ R) in J. discriminate.
    - destruct R as (n & f & H). destruct R' as (n' & f' & H'). rewrite H in H'. injection H' as _ -> _. exact Nx.
    - elim (NR d R). }
  split.
  - intros D. cbn in D. assert (Dx : number h1 d = number h d) by (eapply step_number; [exact S|intros ->; tauto]).
    destruct (in_dec Nat.eq_dec r l) as [J|J].
    + rewrite <- Dx. apply (proj1 (IH _ _ _ r d E1 N1 Id1 R1 J)). tauto.
    + destruct I as [->|I]; [|contradiction]. rewrite (renumber_keep _ _ _ _ _ E1 J). apply Nr. reflexivity.
  - intros (pre & mid & post & EQ). destruct pre as [|y pre]; cbn in EQ; injection EQ as -> EQ.
    + assert (J : In r l) by (rewrite EQ; apply in_or_app; right; left; reflexivity).
      assert (Nd : ~ In d l) by (apply (N [] l); reflexivity).
      rewrite (proj1 (IH _ _ _ r d E1 N1 Id1 R1 J) Nd). symmetry. eapply renumber_keep; [exact E1|exact Nd].
    + assert (J : In r l) by (rewrite EQ; apply in_or_app; right; right; apply in_or_app; right; left; reflexivity).
      apply (proj2 (IH _ _ _ r d E1 N1 Id1 R1 J)). exists pre, mid, post. exact EQ.
Qed.

Lemma introduced : forall l i h h', renumber l i h = Ok h' ->
  (forall x, In x l -> introduces h x = true -> exists k, i <= k /\ number h' x = Some k) /\
  forall x y, In x l -> In y l -> introduces h x = true -> introduces h y = true -> number h' x = number h' y -> x = y.
Proof.
  induction l as [|z l IH]; intros i h h' E; [split; intros x; [intros []|intros y []]|].
  destruct (renumber_step _ _ _ _ _ E) as (h1 & i1 & S & E1). assert (B := step_bare _ _ _ _ _ S). destruct (IH _ _ _ E1) as [A D].
  assert (In1 : forall x, introduces h1 x = introduces h x) by (intros x; apply bare_introduces, B).
  assert (Le : i <= i1) by (destruct S; lia).
  assert (Z : introduces h z = true -> ~ In z l -> number h' z = Some i /\ i1 = Datatypes.S i).
  { intros I N. rewrite (renumber_keep _ _ _ _ _ E1 N). destruct S as [h1 J _ Nx _|h1 d R _ _ _|J _]; [auto|rewrite (refers_introduces _ _ _ R) in I; discriminate|congruence]. }
  assert (A' : forall x, In x l -> introduces h x = true -> exists k, i1 <= k /\ number h' x = Some k) by (intros x I J; apply A; [exact I|rewrite In1; exact J]).
  split.
  - intros x I J. destruct (in_dec Nat.eq_dec x l) as [K|K].
    + destruct (A' x K J) as (k & L & M). exists k. split; [lia|exact M].
    + destruct I as [->|I]; [|contradiction]. destruct (Z J K) as [M _]. exists i. auto.
  - intros x y Ix Iy Jx Jy M. destruct (in_dec Nat.eq_dec x l) as [K|K], (in_dec Nat.eq_dec y l) as [K'|K'].
    + apply D; rewrite ?In1; assumption.
    + destruct Iy as [->|Iy]; [|contradiction]. destruct (Z Jy K') as [M' ->]. destruct (A' x K Jx) as (k & L & M2). rewrite M', M2 in M. injection M as ->. lia.
    + destruct Ix as [->|Ix]; [|contradiction]. destruct (Z Jx K) as [M' ->]. destruct (A' y K' Jy) as (k & L & M2). rewrite M', M2 in M. injection M as <-. lia.
    + destruct Ix as [->|Ix]; [|contradiction]. destruct Iy as [->|Iy]; [|contradiction]. reflexivity.
Qed.

(** ** Names *)

Lemma itoa_digits i : every_char is_digit (itoa i) = true.
Proof.
  unfold itoa. generalize (Nat.to_uint i). induction u; cbn [DecimalString.NilEmpty.string_of_uint every_char]; rewrite ?IHu; reflexivity.
Qed.
Lemma cap_var r t : cap r -> every_char is_digit t = true -> var_name (r ++ t) = true.
Proof.
  intros (c & -> & L) D. cbn. rewrite D, andb_true_r. unfold is_upper. apply andb_true_iff. split; apply N.leb_le; lia.
Qed.
Lemma cap_var_only r : cap r -> var_name r = true.
Proof. intros C. assert (X := cap_var r "" C eq_refl). rewrite sapp_nil in X. exact X. Qed.

(** As [print_names], for trees of which the predicates that are reached are plain. *)
Theorem print_capped U fuel r h s :
  (forall l seen, visited h fuel r = Ok l -> var_runes U h fuel l [] = Ok seen -> forall v c, In (v, c) seen -> cap c) ->
  string_ U fuel (Some (r, h)) = Ok s ->
  exists names body,
    show false names h fuel r = Ok body /\
    (forall v v', show_var false names v = show_var false names v' -> v = v') /\
    (forall v, var_name (show_var false names v) = true) /\
    match names with Some _ => s = (body ++ ".")%string | None => s = body end.
Proof.
  intros C E. unfold string_, print in E.
  destruct (visited h fuel r) as [l| |]; cbn [bind] in E; try discriminate.
  destruct (var_runes U h fuel l []) as [seen| |] eqn:V; cbn [bind] in E; try discriminate. specialize (C _ _ eq_refl V).
  assert (N : NoDup (map fst seen)) by (eapply var_runes_NoDup; [|exact V]; constructor).
  assert (AX : forall k, var_name ("X" ++ itoa k) = true) by (intros k; apply cap_var; [apply cap_X|apply itoa_digits]).
  destruct (negb _ && _) eqn:B.
  - exists None, s. split; [exact E|]. split; [|split; [|reflexivity]]; [|intros v; apply AX]. intros v v' H. unfold show_var in H.
    apply sapp_inv_head, itoa_inj in H. exact H.
  - destruct (var_names _ seen) as [names| |] eqn:VN; cbn [bind] in E; try discriminate.
    destruct (show false (Some names) h fuel r) as [body| |] eqn:Sh; cbn [bind] in E; try discriminate. injection E as <-.
    exists (Some names), body. split; [exact Sh|].
    assert (M : seen = [] \/ max_number seen < length seen).
    { apply andb_false_iff in B. destruct B as [B|B]; [left; destruct seen; [reflexivity|discriminate]|].
      right. apply Nat.leb_gt in B. exact B. }
    destruct M as [-> |M].
    { cbn in VN. injection VN as <-. split; [|split; [|reflexivity]].
      - intros v v' H. unfold show_var in H. assert (H' : ("X" ++ itoa v)%string = ("X" ++ itoa v')%string) by (destruct v, v'; exact H). apply sapp_inv_head, itoa_inj in H'. exact H'.
      - intros v. unfold show_var. destruct v; apply AX. }
    assert (K : NoDup (nodup string_dec (map snd seen))) by apply NoDup_nodup.
    assert (A : forall v r0, In (v, r0) seen -> In r0 (nodup string_dec (map snd seen))).
    { intros v r0 H. apply nodup_In, in_map_iff. exists (v, r0). auto. }
    split; [|split; [|reflexivity]].
    + intros v v' H. unfold show_var in H. fold (name_of names v) (name_of names v') in H. eapply name_of_inj; eassumption.
    + intros v. unfold show_var. fold (name_of names v).
      destruct (name_of_cases _ seen names N K A M VN v) as [(r0 & I & H)|(L & ->)]; [|apply AX].
      destruct H as [k _ -> |_ -> |k _ _ S0].
      * apply cap_var; [exact (C _ _ I)|apply itoa_digits].
      * apply cap_var_only, (C _ _ I).
      * destruct k as [|[|[|k]]]; cbn in S0; try (injection S0 as <-; reflexivity). destruct k; discriminate.
Qed.
