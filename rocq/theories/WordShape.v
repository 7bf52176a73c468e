(** How predicate words are spelled. *)

From Coq Require Import String Ascii NArith ZArith PArith List Bool Permutation FMapPositive Lia.
From Verif Require Import Base Utf8 Utf8Facts Tone ToneSpec ToneFacts PegSyntax Grammar Peg PegToaq PegSpec PegFacts PegToaqFacts Ast AstInd ModFacts ModSpec ModWords
  Action ActionSpec Parser ActionFacts PegText ParserSpec ApiFacts TileSpec SpellSpec TileFacts TileApi SpellFacts.
Import ListNotations.
Open Scope nat_scope.
Open Scope list_scope.
Open Scope res_scope.

(** ** Runes of words *)

Definition plainb (r : N) : bool := (((65 <=? r) && (r <=? 90)) || ((97 <=? r) && (r <=? 122)) || (r =? 305))%N.
Definition tonedb (r : N) : bool := negb (Tone.tone_of tables0 r =? 0)%N.
Definition consb (r : N) : bool := mem_rune r (runes "bcdfghjklmnprstBCDFGHJKLMNPRST").

Lemma toned_toned r : tonedb r = true <-> toned r.
Proof.
  unfold tonedb. destruct (tone_of_cases r) as [[-> N]|[N T]]; cbn.
  - split; [discriminate|contradiction].
  - apply N.eqb_neq in N. rewrite N. split; [intros _; eexists; exact T|reflexivity].
Qed.
Lemma mem_in r l : mem_rune r l = true -> In r l.
Proof. apply mem_rune_In. Qed.
Lemma consb_plain r : consb r = true -> plainb r = true.
Proof.
  intros H. apply mem_in in H. assert (C : forallb plainb (runes "bcdfghjklmnprstBCDFGHJKLMNPRST") = true) by (vm_compute; reflexivity).
  rewrite forallb_forall in C. exact (C _ H).
Qed.
Lemma plain_untoned r : plainb r = true -> ~ toned r.
Proof.
  intros H T. unfold plainb in H. apply orb_prop in H. destruct H as [H|H].
  - apply toned_ge in T. apply orb_prop in H. destruct H as [H|H]; apply andb_prop in H; destruct H as [A B]; apply N.leb_le in A, B; lia.
  - apply N.eqb_eq in H. subst. exact (idot_not_toned T).
Qed.
Lemma consb_sep r : consb r = true -> ToneSpec.separator r.
Proof.
  intros H. assert (P := plain_untoned _ (consb_plain _ H)). apply mem_in in H. split.
  - intros [V|V]; [|contradiction]. revert V. unfold plain_vowel. assert (C : forallb (fun x => negb (mem_rune x (runes "aeiıouAEIOU"))) (runes "bcdfghjklmnprstBCDFGHJKLMNPRST") = true) by (vm_compute; reflexivity).
    rewrite forallb_forall in C. specialize (C _ H). apply negb_true_iff, mem_rune_false in C. exact C.
  - intros ->. revert H. vm_compute. intuition discriminate.
Qed.

(** Letters without tone; those that start with a consonant; with at most one tone; words. *)
Definition Pl (a : list N) : Prop := Forall (fun r => plainb r = true) a.
Definition starts (a : list N) : Prop := match a with r :: _ => consb r = true | [] => False end.
Definition Tn (a : list N) : Prop := Pl a \/ exists p t q, a = p ++ t :: q /\ Pl p /\ toned t /\ Pl q.
Definition rune_ok (r : N) : Prop := plainb r = true \/ toned r.
Definition Wo (a : list N) : Prop := starts a /\ Forall rune_ok a /\ separated a.

Lemma pl_separated a : Pl a -> separated a.
Proof. induction 1 as [|r a P F IH]; [apply separated_nil|]. apply separated_cons. split; [exact IH|]. intros T. destruct (plain_untoned _ P T). Qed.
Lemma pl_clear a : Pl a -> clear_ahead a.
Proof. induction 1 as [|r a P F IH]; [apply clear_nil|]. apply clear_cons. right. split; [apply plain_untoned, P|exact IH]. Qed.
Lemma tn_separated a : Tn a -> separated a.
Proof.
  intros [P|(p & t & q & -> & P & T & Q)]; [apply pl_separated, P|]. induction P as [|r p R P IH]; cbn [app]; apply separated_cons.
  - split; [apply pl_separated, Q|]. intros _. apply pl_clear, Q.
  - split; [exact IH|]. intros X. destruct (plain_untoned _ R X).
Qed.
Lemma clear_app a b : clear_ahead a -> clear_ahead b -> clear_ahead (a ++ b).
Proof. intros A B. induction a as [|r a IH]; [exact B|]. cbn [app]. apply clear_cons in A. apply clear_cons. destruct A as [A|[A C]]; auto. Qed.
Lemma separated_app a b : separated a -> separated b -> clear_ahead b -> separated (a ++ b).
Proof.
  intros A B C. induction a as [|r a IH]; [exact B|]. cbn [app]. apply separated_cons in A. destruct A as [A D]. apply separated_cons. split; [auto|].
  intros T. apply clear_app; auto.
Qed.
Lemma starts_clear b : starts b -> clear_ahead b.
Proof. destruct b as [|r b]; [intros []|]. intros H. apply clear_cons. left. apply consb_sep, H. Qed.
Lemma pl_ok a : Pl a -> Forall rune_ok a.
Proof. apply Forall_impl. intros r P. left. exact P. Qed.
Lemma tn_ok a : Tn a -> Forall rune_ok a.
Proof.
  intros [P|(p & t & q & -> & P & T & Q)]; [apply pl_ok, P|]. apply Forall_app. split; [apply pl_ok, P|]. constructor; [right; exact T|apply pl_ok, Q].
Qed.
Lemma starts_app a b : starts a -> starts (a ++ b).
Proof. destruct a; [intros []|intros H; exact H]. Qed.
Lemma ok_valid a : Forall rune_ok a -> valid a.
Proof.
  apply Forall_impl. intros r [P|T].
  - unfold plainb in P. apply valid_rune_spec. apply orb_prop in P. destruct P as [P|P]; [|apply N.eqb_eq in P; lia].
    apply orb_prop in P. destruct P as [H|H]; apply andb_prop in H; destruct H as [A B]; apply N.leb_le in A, B; lia.
  - apply toned_toned in T. unfold tonedb, Tone.tone_of in T. destruct (lookup r (tb_tone tables0)) eqn:E; [|discriminate]. apply lookup_in in E.
    assert (C : forallb (fun x => valid_rune (fst x)) (tb_tone tables0) = true) by (vm_compute; reflexivity). rewrite forallb_forall in C. exact (C _ E).
Qed.

(** ** Kinds of string values *)

Inductive ckind : Type := CAny | CPlain | CInitial | CToned | CWord.
Definition holdsk (k : ckind) (a : list N) : Prop :=
  match k with CAny => True | CPlain => Pl a | CInitial => Pl a /\ starts a | CToned => Tn a | CWord => Wo a end.
Definition cfits (k : ckind) (v : val) : Prop :=
  match k with CAny => True | _ => exists a, v = VStr (of_runes a) /\ holdsk k a end.
Definition ck_le (a b : ckind) : bool :=
  match a, b with
  | _, CAny | CPlain, (CPlain | CToned) | CInitial, (CPlain | CInitial | CToned | CWord) | CToned, CToned | CWord, CWord => true
  | _, _ => false
  end.
Definition ck_join (a b : ckind) : ckind := if ck_le a b then b else if ck_le b a then a else CAny.
Definition ck_cat (a b : ckind) : ckind :=
  match a, b with
  | CInitial, (CPlain | CInitial) => CInitial
  | CPlain, (CPlain | CInitial) => CPlain
  | CInitial, (CToned | CWord) => CWord
  | CPlain, CToned | CToned, (CPlain | CInitial) => CToned
  | CWord, (CPlain | CInitial | CWord) => CWord
  | _, _ => CAny
  end.
Definition ck_plus (a : ckind) : ckind := match a with CPlain | CInitial | CWord => a | _ => CAny end.

Lemma init_word a : Pl a -> starts a -> Wo a.
Proof. intros P S. split; [exact S|]. split; [apply pl_ok, P|apply pl_separated, P]. Qed.
Lemma cfits_le a b v : ck_le a b = true -> cfits a v -> cfits b v.
Proof.
  intros H F. destruct a, b; try discriminate H; try exact I; try exact F; destruct F as (x & -> & F); exists x; split; try reflexivity; cbn [holdsk] in *;
    try tauto; try (left; tauto). destruct F. apply init_word; assumption.
Qed.
Lemma cjoin_l a b v : cfits a v -> cfits (ck_join a b) v.
Proof. unfold ck_join. destruct (ck_le a b) eqn:E; [apply cfits_le, E|]. destruct (ck_le b a); [auto|intros; exact I]. Qed.
Lemma cjoin_r a b v : cfits b v -> cfits (ck_join a b) v.
Proof. unfold ck_join. destruct (ck_le a b) eqn:E; [auto|]. destruct (ck_le b a) eqn:E'; [apply cfits_le, E'|intros; exact I]. Qed.
Lemma pl_app a b : Pl a -> Pl b -> Pl (a ++ b).
Proof. intros A B. apply Forall_app. split; assumption. Qed.
Lemma cat_holds a b x y : ck_cat a b <> CAny -> holdsk a x -> holdsk b y -> holdsk (ck_cat a b) (x ++ y).
Proof.
  intros N X Y. destruct a, b; try (exfalso; apply N; reflexivity); cbn [ck_cat holdsk] in *.
  - apply pl_app; assumption.
  - apply pl_app; tauto.
  - destruct Y as [Y|(p & t & q & -> & P & T & Q)]; [left; apply pl_app; assumption|]. right. exists (x ++ p), t, q. rewrite app_assoc. split; [reflexivity|]. split; [apply pl_app; assumption|tauto].
  - split; [apply pl_app; tauto|apply starts_app; tauto].
  - split; [apply pl_app; tauto|apply starts_app; tauto].
  - destruct X as [X S]. split; [apply starts_app, S|]. split; [apply Forall_app; split; [apply pl_ok, X|apply tn_ok, Y]|].
    clear S. induction X as [|r x R X IH]; cbn [app]; [apply tn_separated, Y|]. apply separated_cons. split; [exact IH|]. intros T. destruct (plain_untoned _ R T).
  - destruct X as [X S], Y as (Y1 & Y2 & Y3). split; [apply starts_app, S|]. split; [apply Forall_app; split; [apply pl_ok, X|exact Y2]|].
    apply separated_app; [apply pl_separated, X|exact Y3|apply starts_clear, Y1].
  - destruct X as [X|(p & t & q & -> & P & T & Q)]; [left; apply pl_app; assumption|]. right. exists p, t, (q ++ y). rewrite <- app_assoc. split; [reflexivity|]. split; [exact P|]. split; [exact T|apply pl_app; assumption].
  - destruct X as [X|(p & t & q & -> & P & T & Q)]; [left; apply pl_app; tauto|]. right. exists p, t, (q ++ y). rewrite <- app_assoc. split; [reflexivity|]. split; [exact P|]. split; [exact T|apply pl_app; tauto].
  - destruct X as (S & X & Z). split; [apply starts_app, S|]. split; [apply Forall_app; split; [exact X|apply pl_ok, Y]|]. apply separated_app; [exact Z|apply pl_separated, Y|apply pl_clear, Y].
  - destruct X as (S & X & Z), Y as [Y _]. split; [apply starts_app, S|]. split; [apply Forall_app; split; [exact X|apply pl_ok, Y]|]. apply separated_app; [exact Z|apply pl_separated, Y|apply pl_clear, Y].
  - destruct X as (S & X & Z), Y as (S' & Y & Z'). split; [apply starts_app, S|]. split; [apply Forall_app; split; assumption|]. apply separated_app; [exact Z|exact Z'|apply starts_clear, S'].
Qed.
Lemma cfits_str k v : k <> CAny -> cfits k v -> exists a, v = VStr (of_runes a) /\ holdsk k a.
Proof. destruct k; [congruence|intros _ H; exact H..]. Qed.
Lemma str_cfits k v a : v = VStr (of_runes a) -> holdsk k a -> cfits k v.
Proof. intros -> H. destruct k; [exact I|eexists; split; [reflexivity|exact H]..]. Qed.
Lemma cfits_cat a b x y : cfits a x -> cfits b y -> cfits (ck_cat a b) (vcat x y).
Proof.
  intros X Y. assert (D : ck_cat a b = CAny \/ ck_cat a b <> CAny) by (destruct (ck_cat a b); auto; right; discriminate).
  destruct D as [->|N]; [exact I|]. assert (A : a <> CAny) by (intros ->; apply N; reflexivity). assert (B : b <> CAny) by (intros ->; apply N; destruct a; reflexivity).
  destruct (cfits_str _ _ A X) as (u & -> & U). destruct (cfits_str _ _ B Y) as (w & -> & V). eapply str_cfits; [|apply cat_holds; eassumption]. cbn [vcat]. rewrite of_runes_app. reflexivity.
Qed.
Lemma plus_cat a : ck_plus a <> CAny -> ck_plus a = a /\ ck_cat a a = a.
Proof. destruct a; cbn; intros H; try congruence; split; reflexivity. Qed.
Lemma cfits_plus a x y : cfits (ck_plus a) x -> cfits a y -> cfits (ck_plus a) (vplus x y).
Proof.
  intros X Y. assert (D : ck_plus a = CAny \/ ck_plus a <> CAny) by (destruct (ck_plus a); auto; right; discriminate).
  destruct D as [->|N]; [exact I|]. destruct (plus_cat _ N) as [E C]. rewrite E in *. destruct (cfits_str _ _ N X) as (u & -> & U). destruct (cfits_str _ _ N Y) as (w & -> & V).
  eapply str_cfits; [cbn [vplus]; rewrite <- of_runes_app; reflexivity|]. rewrite <- C. apply cat_holds; [rewrite C; exact N|assumption..].
Qed.
Lemma cfits_plus0 a x : cfits a x -> cfits (ck_plus a) (vplus0 x).
Proof. destruct a; try (intros; exact I); intros (u & -> & U); exists u; auto. Qed.

Definition ck_class (rs : list N) : ckind :=
  if forallb consb rs then CInitial else if forallb plainb rs then CPlain else if forallb (fun r => plainb r || tonedb r) rs then CToned else CAny.

Section Table.
Variable table : positive -> ckind.
Fixpoint ck (e : expr) : ckind :=
  match e with
  | EClass rs => ck_class rs
  | ECall r => table r
  | ESeq (EAnd _ | ENot _) b => ck b
  | ESeq a (EAnd _ | ENot _) => ck a
  | ESeq a b => ck_cat (ck a) (ck b)
  | EChoice a b => ck_join (ck a) (ck b)
  | EPlus e => ck_plus (ck e)
  | EAnd _ | ENot _ => CPlain
  | ESub e | ELabel _ e => ck e
  | EAction ADotless [x] (ELabel y e1) => match ck e1 with CPlain => if Nat.eqb x y then CPlain else CAny | _ => CAny end
  | EAction (ADiacritic t) [x] _ => CToned
  | EAction AAddTone [x; x'] (ESeq (ELabel y e1) _) => match ck e1 with CPlain => if Nat.eqb x y then CToned else CAny | _ => CAny end
  | _ => CAny
  end.
(** The action that makes predicates. *)
Definition act_words (a : act) (args : list nat) (e : expr) : bool :=
  match a with
  | AWordPredicate => match args, e with [x], ELabel y e1 => Nat.eqb x y && ck_le (ck e1) CWord && negb (ck_le CAny (ck e1)) | _, _ => false end
  | _ => true
  end.
Fixpoint exp_words (e : expr) : bool :=
  match e with
  | ELit _ | EClass _ | EAny | EPunct | ECall _ => true
  | ESeq a b | EChoice a b => exp_words a && exp_words b
  | EPlus e | EOpt e | EAnd e | ENot e | ESub e | ELabel _ e => exp_words e
  | EAction a args e => exp_words e && act_words a args e
  end.
End Table.

Definition ctab := PositiveMap.t ckind.
Definition ctab_get (t : ctab) (r : positive) : ckind := match PositiveMap.find r t with Some k => k | None => CAny end.
Definition ctab_step (t : ctab) : ctab := PositiveMap.mapi (fun _ x => ck (ctab_get t) (r_body x)) rule_map.
Definition toaq_ctab : ctab := Eval vm_compute in Nat.iter 12 ctab_step (PositiveMap.empty _).
Definition toaq_ck (r : positive) : ckind :=
  match PositiveMap.find r rule_map with Some _ => ctab_get toaq_ctab r | None => CAny end.
Lemma ctab_check : forallb (fun p => ck_le (ck toaq_ck (r_body (snd p))) (toaq_ck (fst p)) && exp_words toaq_ck (r_body (snd p))) (PositiveMap.elements rule_map) = true.
Proof. vm_compute. reflexivity. Qed.
