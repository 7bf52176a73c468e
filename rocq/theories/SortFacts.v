(** The mod methods neither panic on well-sorted nodes nor break their sorts. *)

From Coq Require Import String List Bool.
From Verif Require Import Base PegSyntax Ast AstInd ModFacts AstSorts ActionTypes.
Import ListNotations.

Lemma among_spec l n : among l n = true <-> In (shape_of n) l.
Proof.
  unfold among. rewrite existsb_exists. split.
  - intros (s & Hs & H). destruct (shape_eq_dec s (shape_of n)); [subst; exact Hs|discriminate].
  - intro H. exists (shape_of n). split; [exact H|]. destruct (shape_eq_dec _ _); congruence.
Qed.

Lemma in_dec_b_spec {A} (dec : forall a b : A, {a = b} + {a <> b}) x l : in_dec_b dec x l = true <-> In x l.
Proof. unfold in_dec_b. destruct (in_dec dec x l); split; congruence || tauto. Qed.

Lemma within_spec a b : within a b = true <-> incl a b.
Proof.
  unfold within, incl_b. rewrite forallb_forall. split; intros H x Hx.
  - apply (in_dec_b_spec shape_eq_dec). apply H. exact Hx.
  - apply in_dec_b_spec. apply H. exact Hx.
Qed.

Lemma among_within l m n : within l m = true -> among l n = true -> among m n = true.
Proof. rewrite within_spec, !among_spec. intros H H1. apply H. exact H1. Qed.

Lemma okn_within l m n : within l m = true -> okn l n = true -> okn m n = true.
Proof. unfold okn. intros H H1. apply andb_true_iff in H1. destruct H1 as [H1 H2]. rewrite (among_within _ _ _ H H1), H2. reflexivity. Qed.

Lemma okn_spec l n : okn l n = true <-> among l n = true /\ snode n = true.
Proof. unfold okn. apply andb_true_iff. Qed.

Lemma among_shape l n n' : shape_of n' = shape_of n -> among l n' = among l n.
Proof. intro H. unfold among. rewrite H. reflexivity. Qed.

Lemma modable_not l n : modable l = true -> among l n = true -> shape_of n <> SText.
Proof.
  intros H H1 H2. rewrite among_spec, H2 in H1. unfold modable in H.
  rewrite (proj2 (in_dec_b_spec shape_eq_dec SText l) H1) in H. discriminate H.
Qed.

Definition mod_ok (m : option node) : Prop := onO (fun x => okn mods x = true) m.

Section Mod.

Variable m : option node.
Hypothesis Hm : mod_ok m.

Definition keeps (n : node) : Prop := snode n = true -> shape_of n <> SText ->
  exists n', mod_node m n = Ok n' /\ snode n' = true /\ shape_of n' = shape_of n.
Definition wkeeps (w : word) : Prop := sword w = true -> exists w', mod_word m w = Ok w' /\ sword w' = true.

Lemma keeps_among l n : modable l = true -> keeps n -> okn l n = true ->
  exists n', mod_node m n = Ok n' /\ okn l n' = true.
Proof.
  intros Hl K H. apply okn_spec in H. destruct H as [H1 H2].
  destruct (K H2 (modable_not _ _ Hl H1)) as (n' & E & S & Sh).
  exists n'. split; [exact E|]. apply okn_spec. split; [|exact S]. rewrite (among_shape l n n' Sh). exact H1.
Qed.

Lemma keeps_last l (f : node -> res node) d :
  (forall x, keeps x -> okn l x = true -> exists x', f x = Ok x' /\ okn l x' = true) ->
  Forall keeps d -> nonempty d = true -> forallb (okn l) d = true ->
  exists d', map_last f d = Ok d' /\ nonempty d' = true /\ forallb (okn l) d' = true.
Proof.
  intro Hf. induction d as [|x d IH]; intros K N H; [discriminate|].
  inversion K as [|? ? K1 K2]; subst. cbn [forallb] in H. apply andb_true_iff in H. destruct H as [H1 H2].
  destruct d as [|y d].
  - destruct (Hf x K1 H1) as (x' & E & O). exists [x']. cbn [map_last forallb]. rewrite E. cbn [bind].
    rewrite O. repeat split; reflexivity.
  - destruct (IH K2 eq_refl H2) as (d' & E & N' & F'). exists (x :: d'). cbn [map_last].
    cbn [map_last] in E. rewrite E. cbn [bind forallb]. rewrite H1, F'. repeat split; reflexivity.
Qed.

Lemma item_last n : among items n = true -> (is_sentence n || is_fragment n)%bool = true.
Proof.
  rewrite among_spec. cbv [items sentences fragments relatives freemods app].
  destruct n; cbn [shape_of is_sentence is_fragment orb]; intro H; try reflexivity;
    cbn [In] in H; repeat (destruct H as [H|H]; [discriminate H || (injection H as <-; reflexivity)|]); contradiction.
Qed.

Lemma keeps_discourse d : Forall keeps d -> nonempty d = true -> forallb (okn items) d = true ->
  exists d', discourse_mod (mod_node m) d = Ok d' /\ nonempty d' = true /\ forallb (okn items) d' = true.
Proof.
  unfold discourse_mod. apply keeps_last. intros x K H.
  rewrite item_last by (apply okn_spec in H; tauto). apply keeps_among; [reflexivity|exact K|exact H].
Qed.

Lemma keeps_terms d : Forall keeps d -> nonempty d = true -> forallb (okn terms_) d = true ->
  exists d', terms_mod m (mod_node m) d = Ok d' /\ nonempty d' = true /\ forallb (okn terms_) d' = true.
Proof.
  intros K N F. unfold terms_mod. destruct m as [x|] eqn:E; [|eauto].
  rewrite <- E in *. apply keeps_last; [|assumption..]. intros y Ky Hy. apply keeps_among; [reflexivity|assumption..].
Qed.

Lemma rights_modable k : modable (real_right k) = true.
Proof. destruct k; reflexivity. Qed.

Local Ltac spl H := repeat (apply andb_true_iff in H; destruct H as [H ?]).
Local Ltac splits := repeat match goal with H : (_ && _)%bool = true |- _ => apply andb_true_iff in H; destruct H as [? ?] end.

(* the fixpoint with its local definitions unfolded, stated with [okn] and [sword] *)
Local Ltac start :=
  unfold snode, nearly_sorted, sword in *; cbn [sorted sorted_word] in *;
  fold snode in *;
  repeat change (sorted real_left real_right ?x) with (snode x) in *;
  repeat change (sorted_word real_left real_right ?x) with (sword x) in *.

Lemma snode_eqs :
  (forall d, snode (NDiscourse d) = nonempty d && forallb (okn items) d) /\
  (forall je st da, snode (NSentence je st da) = on_opt sword je && okn statements st && on_opt sword da) /\
  (forall ts bi, snode (NPrenex ts bi) = nonempty ts && forallb (okn terms_) ts && sword bi) /\
  (forall p st, snode (NPrenexStmt p st) = okn [SPrenex] p && okn statements st) /\
  (forall p ts na, snode (NPredication p ts na) =
     okn predicates p && on_opt (fun l => nonempty l && forallb (okn terms_) l) ts && on_opt sword na) /\
  (forall mu p, snode (NPrefixed mu p) = sword mu && okn predicates p) /\
  (forall l r, snode (NSerial l r) = okn predicates l && okn predicates r) /\
  (forall w, snode (NWordPredicate w) = sword w) /\
  (forall mi ga p, snode (NMi mi ga p) = sword mi && on_opt sword ga && okn phrases p) /\
  (forall po ga a, snode (NPo po ga a) = sword po && on_opt sword ga && okn arguments a) /\
  (forall mo teo d, snode (NMo mo teo d) = sword mo && sword teo && nonempty d && forallb (okn items) d) /\
  (forall g a, snode (NLinked g a) = sword g && okn arguments a) /\
  (forall ts, snode (NTerms ts) = nonempty ts && forallb (okn terms_) ts) /\
  (forall f q p rel, snode (NPredArg f q p rel) =
     on_opt sword f && on_opt sword q && okn predicates p && on_opt (okn relatives) rel) /\
  (forall p, snode (NPredRel p) = okn [SPredication] p) /\
  (forall p, snode (NAdverb p) = okn predicates p) /\
  (forall p a, snode (NPrep p a) = okn predicates p && okn arguments a) /\
  (forall p, snode (NPredContent p) = okn [SPredication] p) /\
  (forall kio ki d, snode (NParen kio ki d) = sword kio && sword ki && nonempty d && forallb (okn items) d) /\
  (forall ju st, snode (NIncidental ju st) = sword ju && okn statements st) /\
  (forall hu a, snode (NVocative hu a) = sword hu && okn arguments a) /\
  (forall w, snode (NInterjection w) = sword w) /\
  (forall w, snode (NSpace w) = sword w) /\
  (forall k to0 to1 ru l r, snode (NCoP k to0 to1 ru l r) =
     on_opt sword to0 && on_opt sword to1 && same_opt to0 to1 && sword ru &&
     okn (real_left k (is_some to0)) l && okn (real_right k) r) /\
  (forall k lu st, snode (NLU k lu st) =
     match k with LRaw => false | _ => true end && sword lu && okn statements st) /\
  (forall w, snode (NWord w) = false) /\
  (forall t s e x, sword (Wd t s e x) = on_opt (okn mods) x) /\
  (forall ld d, snode (NText ld d) = on_opt (okn mods) ld && forallb (okn items) d).
Proof. repeat split; intros; reflexivity. Qed.

End Mod.

Lemma mod_keeps m : mod_ok m -> (forall n, keeps m n) /\ (forall w, wkeeps m w).
Proof.
  intro Hm.
  destruct snode_eqs as (E1 & E2 & E3 & E4 & E5 & E6 & E7 & E8 & E9 & E10 & E11 & E12 & E13 & E14 & E15 & E16 & E17 & E18 & E19 & E20 & E21 & E22 & E23 & E24 & E25 & E26 & E27 & E28).
  apply node_word_ind; intros; unfold keeps, wkeeps; intros;
    rewrite ?E1, ?E2, ?E3, ?E4, ?E5, ?E6, ?E7, ?E8, ?E9, ?E10, ?E11, ?E12, ?E13, ?E14, ?E15, ?E16, ?E17, ?E18, ?E19, ?E20, ?E21, ?E22, ?E23, ?E24, ?E25, ?E26, ?E27, ?E28 in *;
    first [rewrite mod_node_eq | rewrite mod_word_eq]; lazy match;
    repeat match goal with H : (_ && _)%bool = true |- _ => apply andb_true_iff in H; destruct H as [? ?] end;
    try (exfalso; congruence);
    repeat match goal with |- context [match ?x with _ => _ end] =>
      match x with
      | mod_node _ _ => fail 1 | mod_word _ _ => fail 1 | m => fail 1
      | _ => is_var x; destruct x; cbn [onO on_opt] in * end end;
    repeat match goal with H : (_ && _)%bool = true |- _ => apply andb_true_iff in H; destruct H as [? ?] end;
    repeat match goal with
    | K : Forall (keeps m) ?d, N : nonempty ?d = true, F : forallb (okn items) ?d = true |- context [discourse_mod (mod_node m) ?d] =>
        let d' := fresh "d'" in destruct (keeps_discourse m d K N F) as (d' & -> & ? & ?); cbn [bind]
    | K : Forall (keeps m) ?d, N : nonempty ?d = true, F : forallb (okn terms_) ?d = true |- context [terms_mod m (mod_node m) ?d] =>
        let d' := fresh "d'" in destruct (keeps_terms m Hm d K N F) as (d' & -> & ? & ?); cbn [bind]
    | K : wkeeps m ?w, O : sword ?w = true |- context [mod_word m ?w] =>
        let w' := fresh "w'" in destruct (K O) as (w' & -> & ?); cbn [bind]
    | K : keeps m ?w, O : okn ?l ?w = true |- context [mod_node m ?w] =>
        let n' := fresh "n'" in
        destruct (keeps_among m l w ltac:(first [reflexivity | apply rights_modable]) K O) as (n' & -> & ?); cbn [bind]
    end;
    try (eexists; split; [reflexivity|]; first [split; [|reflexivity]|idtac];
      rewrite ?E1, ?E2, ?E3, ?E4, ?E5, ?E6, ?E7, ?E8, ?E9, ?E10, ?E11, ?E12, ?E13, ?E14, ?E15, ?E16, ?E17, ?E18, ?E19, ?E20, ?E21, ?E22, ?E23, ?E24, ?E25, ?E26, ?E27, ?E28;
      cbn [on_opt];
      repeat match goal with |- (_ && _)%bool = true => apply andb_true_iff; split end;
      first [assumption | reflexivity]).
  - exfalso. apply H2. reflexivity.
  - destruct m as [x|] eqn:Em; rewrite <- ?Em in *; (eexists; split; [reflexivity|]); rewrite E27; assumption.
  - destruct m as [x|] eqn:Em; (eexists; split; [reflexivity|]); rewrite E27; [exact Hm|reflexivity].
Qed.
