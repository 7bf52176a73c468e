(** The predicate words of a parsed tree. *)

From Coq Require Import String Ascii NArith ZArith PArith List Bool Permutation FMapPositive Lia.
From Verif Require Import Base Utf8 Utf8Facts Tone ToneSpec ToneFacts PegSyntax Grammar Peg PegToaq PegSpec PegFacts PegToaqFacts Ast AstInd ModFacts ModSpec ModWords
  Action ActionSpec Parser ActionFacts PegText ParserSpec ApiFacts TileSpec SpellSpec TileFacts TileApi SpellFacts WordShape.
Import ListNotations.
Open Scope nat_scope.
Open Scope list_scope.
Open Scope res_scope.

Lemma toaq_ctable r : ck_le (ck toaq_ck (r_body (toaq r))) (toaq_ck r) = true.
Proof.
  unfold toaq. destruct (PositiveMap.find r rule_map) as [x|] eqn:F.
  - pose proof ctab_check as C. rewrite forallb_forall in C.
    specialize (C (r, x) (PositiveMap.elements_correct _ _ F)). cbn [fst snd] in C. apply andb_prop in C. tauto.
  - unfold toaq_ck at 2. rewrite F. destruct (ck _ _); reflexivity.
Qed.
Lemma toaq_words r : exp_words toaq_ck (r_body (toaq r)) = true.
Proof.
  unfold toaq. destruct (PositiveMap.find r rule_map) as [x|] eqn:F; [|reflexivity].
  pose proof ctab_check as C. rewrite forallb_forall in C.
  specialize (C (r, x) (PositiveMap.elements_correct _ _ F)). cbn [fst snd] in C. apply andb_prop in C. tauto.
Qed.

(** ** The predicate words of a tree, without those in modifiers *)

Definition olist {A B} (f : A -> list B) (o : option A) : list B := match o with Some a => f a | None => [] end.
Fixpoint predicate_texts (n : node) : list string :=
  match n with
  | NText ld d => olist predicate_texts ld ++ flat_map predicate_texts d
  | NDiscourse d | NPrenex d _ | NTerms d | NMo _ _ d | NParen _ _ d => flat_map predicate_texts d
  | NSentence _ st _ => predicate_texts st
  | NPrenexStmt p st => predicate_texts p ++ predicate_texts st
  | NPredication p ts _ => predicate_texts p ++ olist (flat_map predicate_texts) ts
  | NSerial l r | NCoP _ _ _ _ l r | NPrep l r => predicate_texts l ++ predicate_texts r
  | NWordPredicate w => [w_t w]
  | NPrefixed _ p | NMi _ _ p | NPo _ _ p | NLinked _ p | NPredRel p | NAdverb p | NPredContent p | NIncidental _ p | NVocative _ p | NLU _ _ p => predicate_texts p
  | NPredArg _ _ p rel => predicate_texts p ++ olist predicate_texts rel
  | NInterjection _ | NSpace _ | NWord _ => []
  end.

Lemma flat_bare d : Forall (fun n => predicate_texts (bare n) = predicate_texts n) d -> flat_map predicate_texts (map bare d) = flat_map predicate_texts d.
Proof. induction 1 as [|n d E F IH]; [reflexivity|]. cbn. rewrite E, IH. reflexivity. Qed.
Lemma bare_texts n : predicate_texts (bare n) = predicate_texts n.
Proof.
  revert n. apply (node_word_ind (fun n => predicate_texts (bare n) = predicate_texts n) (fun _ => True)); intros; try exact I; cbn [bare predicate_texts].
  all: repeat match goal with o : option _ |- _ => destruct o end; cbn [onO option_map olist] in *; rewrite ?flat_bare by assumption; try reflexivity; try congruence.
Qed.

Fixpoint vtexts (v : val) : list string :=
  match v with
  | VNode n => predicate_texts n
  | VOpt (Some v) => vtexts v
  | VBar _ r | VForeBar _ r => predicate_texts r
  | VFore _ l r => predicate_texts l ++ predicate_texts r
  | VMo _ d | VParen _ d => flat_map predicate_texts d
  | _ => []
  end.

Lemma nmod_texts s n n' : nmod s n = Ok n' -> predicate_texts n' = predicate_texts n.
Proof.
  intros E. destruct s as [[| |m| | | | | | | |]|]; try discriminate E; cbn [nmod] in E; apply (proj1 (mod_bare _)) in E; rewrite <- (bare_texts n'), E; apply bare_texts.
Qed.
Lemma opt_node_texts s o : opt_node s = Ok o -> olist predicate_texts o = vtexts (VOpt s).
Proof. destruct s as [[]|]; try discriminate; intro E; injection E as <-; reflexivity. Qed.

Lemma end_predication_texts p s na y : end_predication p s na = Ok y -> predicate_texts y = predicate_texts p.
Proof. unfold end_predication. intros E. inva E. apply nmod_texts in Ey. rewrite <- Ey. reflexivity. Qed.
Lemma act_texts a i j vs v : run_act a i j vs = Ok v -> a <> AWordPredicate -> forall t, In t (vtexts v) -> In t (flat_map vtexts vs).
Proof.
  intros E N t T. destruct a; try congruence; inva E.
  all: repeat match goal with
    | H : nmod _ _ = Ok _ |- _ => apply nmod_texts in H; apply (f_equal (In t)) in H
    | H : end_predication _ _ _ = Ok _ |- _ => apply end_predication_texts in H; apply (f_equal (In t)) in H
    | H : opt_node _ = Ok _ |- _ => apply opt_node_texts in H; apply (f_equal (In t)) in H
    end.
  all: cbn [flat_map vtexts predicate_texts olist] in *; unfold prepend in *; rewrite ?flat_map_app, ?in_app_iff in *; cbn [flat_map] in *; rewrite ?app_nil_r, ?in_app_iff in *.
  all: repeat match goal with H : @eq Prop _ _ |- _ => rewrite ?in_app_iff in H; first [rewrite H in T|rewrite <- H]; clear H end; rewrite ?in_app_iff in *; try tauto.
Qed.

(** ** Values *)

Definition word_like (s : string) : Prop := exists a, s = of_runes a /\ Wo a.

Lemma diacritic_toned t l f : diacritic_of t l = Ok f -> exists r, f = of_runes [r] /\ toned r.
Proof.
  unfold diacritic_of. destruct (lookup t diacritic) as [row|] eqn:L; [|discriminate]. destruct (slookup l row) as [[|f' fs]|] eqn:S; try discriminate.
  intros E. injection E as ->. apply lookup_in in L. apply slookup_in in S.
  assert (C : forallb (fun x : tone_row => forallb (fun y => forallb (fun g => match runes g with [r] => tonedb r && String.eqb (of_runes [r]) g | _ => false end) (snd y)) (snd x)) diacritic = true) by (vm_compute; reflexivity).
  rewrite forallb_forall in C. specialize (C _ L). cbn [snd] in C. rewrite forallb_forall in C. specialize (C _ S). cbn [snd forallb] in C. apply andb_prop in C. destruct C as [C _].
  destruct (runes f) as [|r [|]]; try discriminate. apply andb_prop in C. destruct C as [C1 C2]. apply String.eqb_eq in C2. exists r. split; [symmetry; exact C2|apply toned_toned, C1].
Qed.

Section Text.
Variable is_punct : N -> bool.
Variable text : string.
Notation vsem := (@vsem toaq is_punct text).
Notation vstar := (@vstar toaq is_punct text).
Notation ck := (ck toaq_ck).

Definition wfine (v : val) : Prop := forall s, In s (vtexts v) -> word_like s.
Fixpoint wdeep (e : expr) (v : val) (en : env) : Prop :=
  cfits (ck e) v /\ wfine v /\ Forall wfine (map snd en) /\
  match e with
  | ESeq a b => exists v1 en1 v2 en2, en = en1 ++ en2 /\ wdeep a v1 en1 /\ wdeep b v2 en2
  | ELabel l e1 => en = [(l, v)] /\ exists en1, wdeep e1 v en1
  | EAnd _ | ENot _ => v = VStr "" /\ en = []
  | _ => True
  end.
Definition wdeep_out (e : expr) (o : aout (val * env)) : Prop := match o with AOk p (v, en) => wdeep e v en | _ => True end.
Lemma stuck_wdeep e o : stuck o = true -> wdeep_out e o.
Proof. destruct o; [reflexivity|reflexivity|discriminate]. Qed.
Lemma wdeep_fits e v en : wdeep e v en -> cfits (ck e) v /\ wfine v /\ Forall wfine (map snd en).
Proof. destruct e; cbn [wdeep]; tauto. Qed.
Lemma wfine_str s : wfine (VStr s).
Proof. intros t []. Qed.
Lemma wfine_unit : wfine VUnit.
Proof. intros t []. Qed.
Lemma wfine_vcat a b : wfine (vcat a b).
Proof. destruct a; try apply wfine_unit. destruct b; apply wfine_unit. Qed.
Lemma wfine_vplus a b : wfine a -> wfine b -> wfine (vplus a b).
Proof.
  intros A B. destruct a; cbn [vplus]; try apply wfine_unit.
  - destruct b; apply wfine_unit.
  - match goal with n : node |- _ => destruct n end; try apply wfine_unit. destruct b; try apply wfine_unit.
    intros t T. cbn [vtexts predicate_texts] in T. rewrite flat_map_app, in_app_iff in T. cbn [flat_map] in T.
    rewrite app_nil_r in T. destruct T as [T|T]; [apply A|apply B]; exact T.
Qed.
Lemma wfine_vplus0 a : wfine a -> wfine (vplus0 a).
Proof.
  intros A. destruct a; cbn [vplus0]; try apply wfine_unit; try apply wfine_str.
  intros t T. cbn [vtexts predicate_texts flat_map] in T. rewrite app_nil_r in T. apply A. exact T.
Qed.
Lemma get_label_wfine l en v : Forall wfine (map snd en) -> get_label l en = Some v -> wfine v.
Proof.
  induction en as [|[l' x] en IH]; cbn [map snd get_label]; [discriminate|]. intros F E. inversion F; subst.
  destruct (Nat.eqb l l'); [injection E as <-; assumption|auto].
Qed.
Lemma get_labels_wfine ls en vs : Forall wfine (map snd en) -> get_labels ls en = Some vs -> Forall wfine vs.
Proof.
  intro F. revert vs. induction ls as [|l ls IH]; cbn [get_labels]; intros vs E; [injection E as <-; constructor|].
  destruct (get_label l en) eqn:G; [|discriminate]. destruct (get_labels ls en); [|discriminate]. injection E as <-.
  constructor; [exact (get_label_wfine _ _ _ F G)|auto].
Qed.

Lemma class_cfits rs r u : In r rs -> (r <> rune_error -> u = of_runes [r]) -> cfits (ck_class rs) (VStr u).
Proof.
  intros I E. unfold ck_class.
  assert (P : plainb r = true -> u = of_runes [r]) by (intros P; apply E; intros ->; discriminate).
  destruct (forallb consb rs) eqn:C1; [rewrite forallb_forall in C1; specialize (C1 _ I); exists [r]; assert (Q := consb_plain _ C1); split; [f_equal; auto|]; split; [repeat constructor; exact Q|exact C1]|].
  destruct (forallb plainb rs) eqn:C2; [rewrite forallb_forall in C2; specialize (C2 _ I); exists [r]; split; [f_equal; auto|]; repeat constructor; exact C2|].
  destruct (forallb (fun r => plainb r || tonedb r) rs) eqn:C3; [|exact Logic.I]. rewrite forallb_forall in C3. specialize (C3 _ I). exists [r]. apply orb_prop in C3. destruct C3 as [C|C].
  - split; [f_equal; auto|]. left. repeat constructor. exact C.
  - split; [f_equal; apply E; intros ->; vm_compute in C; discriminate|]. right. exists [], r, []. apply toned_toned in C. repeat split; try exact C; constructor.
Qed.

Lemma seq_cfits a b v1 v2 : (forall e, a = EAnd e \/ a = ENot e -> v1 = VStr "") -> (forall e, b = EAnd e \/ b = ENot e -> v2 = VStr "") ->
  cfits (ck a) v1 -> cfits (ck b) v2 -> cfits (ck (ESeq a b)) (vcat v1 v2).
Proof.
  intros A B X Y. assert (Hc := cfits_cat _ _ _ _ X Y).
  assert (HB : cfits (ck b) (vcat (VStr "") v2)) by (destruct (ck b); try exact I; destruct Y as (u & -> & Y); exists u; (split; [reflexivity|exact Y])).
  assert (HA : cfits (ck a) (vcat v1 (VStr ""))) by (destruct (ck a); try exact I; destruct X as (u & -> & X); exists u; (split; [cbn [vcat]; rewrite sapp_nil_r; reflexivity|exact X])).
  destruct a; try (rewrite (A _ (or_introl eq_refl)); exact HB); try (rewrite (A _ (or_intror eq_refl)); exact HB);
    destruct b; try exact Hc; try (rewrite (B _ (or_introl eq_refl)); exact HA); rewrite (B _ (or_intror eq_refl)); exact HA.
Qed.

Lemma dotless_cfits l : cfits CPlain (VStr l) -> cfits CPlain (VStr (if String.eqb l "i" then "ı" else l)).
Proof. intros H. destruct (String.eqb l "i"); [|exact H]. exists [305%N]. split; [reflexivity|]. repeat constructor. Qed.
Lemma add_tone_cfits d ton f : cfits CPlain (VStr d) -> add_tone d ton = Ok f -> cfits CToned (VStr f).
Proof.
  intros (a & E & P) D. injection E as ->. unfold add_tone in D. apply bind_ok in D. destruct D as (y & D & D'). injection D' as <-.
  apply diacritic_toned in D. destruct D as (r & -> & T). assert (V := ok_valid _ (pl_ok _ P)). destruct a as [|r0 a].
  - exists [r]. cbn. rewrite sapp_nil_r. split; [reflexivity|]. right. exists [], r, []. repeat split; try exact T; constructor.
  - inversion V; subst. inversion P; subst. cbn [of_runes]. rewrite decode_encode_app by assumption. cbn [snd]. rewrite sdrop_app. exists (r :: a). split; [cbn [of_runes]; rewrite sapp_nil_r; reflexivity|].
    right. exists [], r, a. repeat split; try assumption. constructor.
Qed.

Lemma wdeep_all :
  (forall e pos o, vsem e pos o -> exp_words toaq_ck e = true -> wdeep_out e o) /\
  (forall e pos v o, vstar e pos v o -> exp_words toaq_ck e = true -> cfits (ck_plus (ck e)) v -> wfine v ->
     match o with AOk p (v', en) => cfits (ck_plus (ck e)) v' /\ wfine v' /\ en = [] | _ => True end).
Proof.
  apply vsem_star_ind; try (intros; apply stuck_wdeep; assumption || reflexivity).
  - intros e pos p k err T S X. destruct e; try discriminate T; cbn [wdeep_out wdeep]; (split; [|split; [apply wfine_str|split; [constructor|exact I]]]); try exact I.
    inversion S; subst. eapply class_cfits; [eassumption|]. intros N. apply (decode_slice text pos r w); assumption.
  - intros r pos p k err v en S V IH X. specialize (IH (toaq_words r)). cbn [wdeep_out] in *. apply wdeep_fits in IH. destruct IH as (A1 & A2 & _).
    cbn [wdeep map]. split; [exact (cfits_le _ _ _ (toaq_ctable r) A1)|split; [exact A2|split; [constructor|exact I]]].
  - intros a b pos p1 v1 en1 p2 v2 en2 V1 I1 V2 I2 X. cbn [exp_words] in *. apply andb_prop in X. destruct X as [X1 X2]. specialize (I1 X1). specialize (I2 X2). cbn [wdeep_out] in *.
    pose proof (wdeep_fits _ _ _ I1) as (F1 & F2 & F3). pose proof (wdeep_fits _ _ _ I2) as (G1 & G2 & G3). 
    change (cfits (ck (ESeq a b)) (vcat v1 v2) /\ wfine (vcat v1 v2) /\ Forall wfine (map snd (en1 ++ en2)) /\ exists v1' en1' v2' en2', en1 ++ en2 = en1' ++ en2' /\ wdeep a v1' en1' /\ wdeep b v2' en2').
    split; [|split; [apply wfine_vcat|split]].
    + apply seq_cfits; [| |exact F1|exact G1].
      * intros e [->| ->]; cbn [wdeep] in I1; tauto.
      * intros e [->| ->]; cbn [wdeep] in I2; tauto.
    + rewrite map_app. apply Forall_app. split; assumption.
    + exists v1, en1, v2, en2. auto.
  - intros a b pos o _ IH N X. cbn [exp_words] in *. apply andb_prop in X. specialize (IH (proj1 X)).
    destruct o as [| |p [v en]]; try exact I. cbn [wdeep_out] in *. apply wdeep_fits in IH. destruct IH as (A1 & A2 & A3). cbn [wdeep].
    split; [apply cjoin_l; exact A1|tauto].
  - intros a b pos o _ _ _ IH X. cbn [exp_words] in *. apply andb_prop in X. specialize (IH (proj2 X)).
    destruct o as [| |p [v en]]; try exact I. cbn [wdeep_out] in *. apply wdeep_fits in IH. destruct IH as (A1 & A2 & A3). cbn [wdeep].
    split; [apply cjoin_r; exact A1|tauto].
  - intros e pos p1 v1 en1 o V I1 _ I2 X. cbn [exp_words] in *. specialize (I1 X). cbn [wdeep_out] in I1. apply wdeep_fits in I1.
    destruct I1 as (A1 & A2 & _). specialize (I2 X (cfits_plus0 _ _ A1) (wfine_vplus0 _ A2)).
    destruct o as [| |p [v en]]; try exact I. destruct I2 as (C1 & C2 & ->). cbn [wdeep_out wdeep map]. split; [exact C1|]. split; [exact C2|]. split; [constructor|exact I].
  - intros e pos p v en _ IH X. cbn [exp_words] in *. specialize (IH X). cbn [wdeep_out] in *. apply wdeep_fits in IH. destruct IH as (_ & A2 & _).
    cbn [wdeep map WordShape.ck]. split; [exact I|]. split; [exact A2|]. split; [constructor|exact I].
  - intros e pos _ _ X. cbn [wdeep_out wdeep map WordShape.ck]. split; [exact I|]. split; [intros t []|]. split; [constructor|exact I].
  - intros e pos p v _ _ X. cbn [wdeep_out wdeep map WordShape.ck]. split; [exists []; repeat split; constructor|]. split; [apply wfine_str|]. split; [constructor|]. split; reflexivity.
  - intros e pos _ _ X. cbn [wdeep_out wdeep map WordShape.ck]. split; [exists []; repeat split; constructor|]. split; [apply wfine_str|]. split; [constructor|split; reflexivity].
  - intros e pos o _ IH X. cbn [exp_words] in *. specialize (IH X). destruct o as [| |p [v en]]; try exact I. cbn [wdeep_out] in *. apply wdeep_fits in IH.
    cbn [wdeep WordShape.ck]. tauto.
  - intros l e pos p v en _ IH X. cbn [exp_words] in *. specialize (IH X). cbn [wdeep_out] in *. pose proof (wdeep_fits _ _ _ IH) as (A1 & A2 & _).
    cbn [wdeep map snd WordShape.ck]. split; [exact A1|]. split; [exact A2|]. split; [constructor; [exact A2|constructor]|]. split; [reflexivity|]. exists en. exact IH.
  - intros a args e pos p v en v' V IH E X. cbn [exp_words] in *. apply andb_prop in X. destruct X as [X1 X2].
    specialize (IH X1). cbn [wdeep_out] in *. unfold run_action in E. destruct (get_labels args en) as [vs|] eqn:G; [|discriminate].
    pose proof (wdeep_fits _ _ _ IH) as (_ & _ & F3). pose proof (get_labels_wfine _ _ _ F3 G) as Fv.
    assert (K : wfine v' /\ cfits (ck (EAction a args e)) v').
    { split.
      - assert (D : a = AWordPredicate \/ a <> AWordPredicate) by (destruct a; auto; right; discriminate). destruct D as [->|N].
        + cbn [act_words] in X2. destruct args as [|x [|]]; try discriminate X2. destruct e; try discriminate X2. apply andb_prop in X2. destruct X2 as [X2 X3]. apply andb_prop in X2. destruct X2 as [Q1 Q2].
          apply Nat.eqb_eq in Q1. subst x. cbn [wdeep] in IH. destruct IH as (_ & _ & _ & -> & en3 & D). cbn [get_labels get_label] in G. rewrite Nat.eqb_refl in G. injection G as <-.
          apply wdeep_fits in D. destruct D as (D & _). apply (cfits_le _ _ _ Q2) in D. destruct D as (w & -> & D). cbn [run_act] in E. injection E as <-. intros s [<-|[]]. exists w. split; [reflexivity|exact D].
        + intros t T. pose proof (act_texts _ _ _ _ _ E N t T) as H. apply in_flat_map in H. destruct H as (x & Ix & H). rewrite Forall_forall in Fv. exact (Fv x Ix t H).
      - destruct a; try exact I; destruct args as [|x [|x' [|]]]; try exact I.
        + destruct e; try exact I. cbn [WordShape.ck]. destruct (ck e) eqn:K; try exact I. destruct (Nat.eqb_spec x l) as [->|]; [|exact I].
          cbn [wdeep] in IH. destruct IH as (_ & _ & _ & -> & en3 & D). cbn [get_labels get_label] in G. rewrite Nat.eqb_refl in G. injection G as <-.
          apply wdeep_fits in D. destruct D as (D & _). rewrite K in D. assert (D' := D). destruct D' as (w & -> & _). cbn [run_act] in E. injection E as <-. apply dotless_cfits, D.
        + cbn [WordShape.ck]. cbn [run_act] in E. destruct vs as [|[] [|]]; try discriminate E. apply bind_ok in E. destruct E as (f & Ef & E). injection E as <-.
          destruct (diacritic_toned _ _ _ Ef) as (r & -> & T). exists [r]. split; [reflexivity|]. right. exists [], r, []. repeat split; try exact T; constructor.
        + destruct e; try exact I. destruct e1; try exact I. cbn [WordShape.ck]. destruct (ck e1) eqn:K; try exact I. destruct (Nat.eqb_spec x l) as [->|]; [|exact I].
          cbn [wdeep] in IH. destruct IH as (_ & _ & _ & v1 & en1 & v2 & en2 & -> & (_ & _ & _ & -> & en3 & D) & _). cbn [get_labels get_label app] in G. rewrite Nat.eqb_refl in G.
          match type of G with match ?o with _ => _ end = _ => destruct o as [v3|]; [|discriminate G] end. injection G as <-. apply wdeep_fits in D. destruct D as (D & _). rewrite K in D. assert (D' := D). destruct D' as (w & -> & _).
          cbn [run_act] in E. destruct v3 as [|[] [|]]; try discriminate E. apply bind_ok in E. destruct E as (f & Ef & E). injection E as <-. exact (add_tone_cfits _ _ _ D Ef). }
    destruct K as [K1 K2]. cbn [wdeep map]. split; [exact K2|]. split; [exact K1|]. split; [constructor|exact I].
  - intros e pos v _ _ X F1 F2. split; [exact F1|]. split; [exact F2|reflexivity].
  - intros; exact I.
  - intros e pos v p1 v1 en1 o V I1 _ I2 X F1 F2. specialize (I1 X). cbn [wdeep_out] in I1. apply wdeep_fits in I1. destruct I1 as (A1 & A2 & _).
    apply I2; [exact X|apply cfits_plus; assumption|apply wfine_vplus; assumption].
Qed.

Lemma text_words p n : reach is_punct text p -> fst (text_of is_punct p) = Ok (Got (Some n)) ->
  forall s, In s (predicate_texts n) -> word_like s.
Proof.
  intros R E. apply (proj1 (text_sem _ _ p R)) in E. destruct E as (q & V).
  pose proof (proj1 wdeep_all _ _ _ V eq_refl) as D. cbn [wdeep_out] in D. apply wdeep_fits in D. exact (proj1 (proj2 D)).
Qed.
End Text.
