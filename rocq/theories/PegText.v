(** Parse trees spell the text they match, and matching stops between characters. *)

From Coq Require Import String Ascii NArith ZArith PArith List FMapPositive Lia Bool.
From Verif Require Import Base Utf8 Utf8Facts PegSyntax Grammar Peg PegToaq PegSpec PegFacts NodeFacts PegToaqFacts TreeSpec.
Import ListNotations.
Open Scope list_scope.
Open Scope nat_scope.

Lemma stake_add n : forall m s, stake (n + m) s = (stake n s ++ stake m (sdrop n s))%string.
Proof. induction n; intros m s; [reflexivity|]. destruct s; cbn; [destruct m; reflexivity|]. rewrite IHn. reflexivity. Qed.

Lemma slice_app text a b c : a <= b <= c -> (slice text a b ++ slice text b c)%string = slice text a c.
Proof.
  intros H. unfold slice. replace (c - a) with ((b - a) + (c - b)) by lia. rewrite stake_add, sdrop_sdrop.
  replace (a + (b - a)) with b by lia. reflexivity.
Qed.
Lemma slice_nil text a : slice text a a = ""%string.
Proof. unfold slice. rewrite Nat.sub_diag. destruct (sdrop a text); reflexivity. Qed.

Lemma concat_texts_app a b : concat_texts (a ++ b) = (concat_texts a ++ concat_texts b)%string.
Proof. induction a; [reflexivity|]. cbn. rewrite sapp_assoc. f_equal. exact IHa. Qed.

(** A node is a leaf or spelled by its children; the node of a rule is spelled by its
    children even when it has none. *)
Definition spelled (n : pnode) : Prop :=
  (p_kids n <> [] \/ p_name n <> ""%string -> p_text n = concat_texts (p_kids n)).

Lemma inside_kids nm t kids m : inside m (PNode nm t kids) -> m = PNode nm t kids \/ exists k, In k kids /\ inside m k.
Proof. intro H. inversion H; subst; eauto. Qed.

Section PnodeInd.
  Variable P : pnode -> Prop.
  Hypothesis H : forall nm t kids, Forall P kids -> P (PNode nm t kids).
  Fixpoint pnode_ind2 (n : pnode) : P n :=
    match n with
    | PNode nm t kids =>
        H nm t kids ((fix go (l : list pnode) : Forall P l :=
          match l with [] => Forall_nil _ | k :: l' => Forall_cons _ (pnode_ind2 k) (go l') end) kids)
    end.
End PnodeInd.

Lemma leaves_spell n : (forall m, inside m n -> spelled m) -> concat_texts (leaves n) = p_text n.
Proof.
  induction n as [nm t kids IH] using pnode_ind2. intro H.
  destruct kids as [|k kids]; [cbn; apply sapp_nil_r|].
  assert (Hs := H _ (InHere _)). unfold spelled in Hs. cbn [p_text p_kids] in *.
  change (leaves (PNode nm t (k :: kids))) with (flat_map leaves (k :: kids)). rewrite Hs by (left; discriminate).
  assert (Hk : forall k', In k' (k :: kids) -> forall m, inside m k' -> spelled m).
  { intros k' Hi m Hm. apply H. eapply InKid; eassumption. }
  clear H Hs. induction IH as [|x l Hx Hl IH2]; [reflexivity|].
  cbn [flat_map]. rewrite concat_texts_app. cbn [concat_texts fold_right]. f_equal.
  - apply Hx. intros m Hm. eapply Hk; [left; reflexivity|exact Hm].
  - apply IH2. intros k' Hi. apply Hk. right. exact Hi.
Qed.

Section PegText.

Variable G : positive -> rule.
Variable is_punct : N -> bool.
Variable text : string.
Variable nullable : positive -> bool.
Variable rank : positive -> nat.
Variable maxrank : nat.
Hypothesis wf : forall r, wf_rule G nullable rank maxrank r = true.

Notation sem := (@sem G is_punct text).
Notation star := (@star G is_punct text).
Notation L := (String.length text).

Definition spells (pos p : nat) (k : list pnode) : Prop :=
  concat_texts k = slice text pos p /\ (forall n m, In n k -> inside m n -> spelled m).

Lemma spells_nil pos : spells pos pos [].
Proof. split; [rewrite slice_nil; reflexivity|intros n m []]. Qed.
Lemma spells_leaf pos p : spells pos p [mk_leaf text pos p].
Proof.
  split; [cbn; apply sapp_nil_r|]. intros n m [<-|[]] H. inversion H; subst; [|contradiction].
  unfold spelled. cbn. intros [X|X]; contradiction X; reflexivity.
Qed.
Lemma spells_app a b c k1 k2 : a <= b <= c -> spells a b k1 -> spells b c k2 -> spells a c (k1 ++ k2).
Proof.
  intros H [A1 A2] [B1 B2]. split.
  - rewrite concat_texts_app, A1, B1. apply slice_app. exact H.
  - intros n m Hi. apply in_app_iff in Hi. destruct Hi as [Hi|Hi]; [apply A2|apply B2]; exact Hi.
Qed.
Lemma spells_node nm pos p k : spells pos p k -> spells pos p [PNode nm (stake (p - pos) (sdrop pos text)) k].
Proof.
  intros [A1 A2]. split; [cbn; apply sapp_nil_r|]. intros n m [<-|[]] H. apply inside_kids in H. destruct H as [->|(x & Hx & H)].
  - unfold spelled. cbn [p_kids p_text]. intros _. symmetry. exact A1.
  - eapply A2; eassumption.
Qed.

Lemma sem_spells_all :
  (forall e pos res err, sem e pos res err -> pos <= L -> match res with Some (p, k) => spells pos p k | None => True end) /\
  (forall e pos p k err, star e pos p k err -> pos <= L -> spells pos p k).
Proof.
  apply sem_star_ind; intros; try exact I; try apply spells_nil; try apply spells_leaf; auto using spells_node;
    try (match goal with H : _ -> ?X |- ?X => apply H; assumption end).
  - destruct (sem_some _ _ _ _ _ _ wf _ _ _ _ _ s H1) as [B1 _].
    destruct (sem_some _ _ _ _ _ _ wf _ _ _ _ _ s0 (proj2 B1)) as [B2 _].
    eapply spells_app; [|apply H; lia|apply H0; lia]. lia.
  - destruct (sem_some _ _ _ _ _ _ wf _ _ _ _ _ s H1) as [B1 _].
    destruct (proj2 (sem_bounds_all _ is_punct text _ _ _ wf) _ _ _ _ _ s0 (proj2 B1)) as [_ B2].
    eapply spells_app; [|apply H; lia|apply H0; lia]. lia.
  - destruct (sem_some _ _ _ _ _ _ wf _ _ _ _ _ s H1) as [B1 _].
    destruct (proj2 (sem_bounds_all _ is_punct text _ _ _ wf) _ _ _ _ _ s0 (proj2 B1)) as [_ B2].
    eapply spells_app; [|apply H; lia|apply H0; lia]. lia.
Qed.

(** ** Stopping between characters *)

Fixpoint lits_ok (e : expr) : bool :=
  match e with
  | ELit s => String.eqb (of_runes (runes s)) s
  | EClass _ | EAny | EPunct | ECall _ => true
  | ESeq a b | EChoice a b => lits_ok a && lits_ok b
  | EPlus a | EOpt a | EAnd a | ENot a | ESub a | ELabel _ a | EAction _ _ a => lits_ok a
  end.
Hypothesis Hlits : forall r, lits_ok (r_body (G r)) = true.

Variable rs : list N.
Hypothesis Hvalid : Forall (fun r => valid_rune r = true) rs.
Hypothesis Htext : text = of_runes rs.

(** [pos] is between two characters of the text. *)
Definition between (pos : nat) : Prop := exists a b, rs = a ++ b /\ pos = String.length (of_runes a).

Lemma of_runes_app a b : of_runes (a ++ b) = (of_runes a ++ of_runes b)%string.
Proof. induction a; [reflexivity|]. cbn. rewrite sapp_assoc. f_equal. exact IHa. Qed.

Lemma between_drop a b : rs = a ++ b -> sdrop (String.length (of_runes a)) text = of_runes b.
Proof. intro E. rewrite Htext, E, of_runes_app. apply sdrop_app. Qed.

Lemma between_step pos r w : between pos -> decode_rune (sdrop pos text) = (r, w) -> between (pos + w).
Proof.
  intros (a & b & E & ->) H. rewrite (between_drop _ _ E) in H. destruct b as [|c b].
  - cbn in H. injection H as <- <-. exists a, []. split; [exact E|lia].
  - cbn [of_runes] in H. rewrite E in Hvalid. apply Forall_app in Hvalid. destruct Hvalid as [_ Hb]. inversion Hb; subst.
    rewrite decode_encode_app in H by assumption. injection H as <- <-.
    exists (a ++ [c]), b. split; [rewrite E, <- app_assoc; reflexivity|].
    rewrite of_runes_app, slength_app. cbn [of_runes]. rewrite sapp_nil_r. reflexivity.
Qed.

Lemma of_runes_prefix l : forall b rest, Forall (fun r => valid_rune r = true) l -> Forall (fun r => valid_rune r = true) b ->
  of_runes b = (of_runes l ++ rest)%string -> exists b', b = l ++ b'.
Proof.
  induction l as [|c l IH]; intros b rest Hl Hb H; [exists b; reflexivity|].
  inversion Hl; subst. cbn [of_runes] in H. rewrite sapp_assoc in H. destruct b as [|d b].
  - exfalso. cbn in H. destruct (encode_rune c) eqn:E; [exact (encode_rune_nonempty _ E)|discriminate].
  - inversion Hb; subst. cbn [of_runes] in H.
    assert (D := f_equal decode_rune H). rewrite !decode_encode_app in D by assumption. injection D as -> _.
    assert (D := f_equal (sdrop (String.length (encode_rune c))) H). rewrite !sdrop_app in D.
    destruct (IH _ _ H3 H5 D) as (b' & ->). exists b'. reflexivity.
Qed.

Lemma between_lit pos s rest : of_runes (runes s) = s -> between pos -> sdrop pos text = (s ++ rest)%string ->
  between (pos + String.length s).
Proof.
  intros Hs (a & b & E & ->) H. rewrite (between_drop _ _ E), <- Hs in H.
  assert (Hb : Forall (fun r => valid_rune r = true) b) by (rewrite E in Hvalid; apply Forall_app in Hvalid; tauto).
  destruct (of_runes_prefix _ _ _ (runes_valid s) Hb H) as (b' & ->).
  exists (a ++ runes s), b'. split; [rewrite <- app_assoc; exact E|]. rewrite of_runes_app, slength_app, Hs. reflexivity.
Qed.

Lemma sem_between_all :
  (forall e pos res err, sem e pos res err -> lits_ok e = true -> between pos ->
     match res with Some (p, k) => between p | None => True end) /\
  (forall e pos p k err, star e pos p k err -> lits_ok e = true -> between pos -> between p).
Proof.
  apply sem_star_ind; cbn [lits_ok]; intros;
  repeat match goal with H : (_ && _)%bool = true |- _ => apply andb_true_iff in H; destruct H end; auto;
  try (match goal with H : _ -> _ -> ?X |- ?X => apply H; auto; fail end);
  try (eapply between_step; eassumption).
  eapply between_lit; [|eassumption|eassumption]. apply String.eqb_eq. assumption.
Qed.

End PegText.

Lemma toaq_lits_check : forallb (fun p => lits_ok (r_body (snd p))) (PositiveMap.elements rule_map) = true.
Proof. vm_compute. reflexivity. Qed.
Lemma toaq_lits r : lits_ok (r_body (toaq r)) = true.
Proof.
  unfold toaq. destruct (PositiveMap.find r rule_map) as [x|] eqn:E; [|reflexivity].
  pose proof toaq_lits_check as H. rewrite forallb_forall in H. apply (H (r, x)). apply PositiveMap.elements_correct. exact E.
Qed.
