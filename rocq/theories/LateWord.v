(** Word panics exactly where the word has a digit after two letters. *)

From Coq Require Import String Ascii NArith ZArith PArith List FMapPositive Lia Bool.
From Verif Require Import Base Utf8 Utf8Facts PegSyntax Grammar Peg PegToaq PegSpec PegFacts PegToaqFacts NodeFacts TreeSpec
  Tone SpellFacts Ast Action ActionSpec ActionFacts Parser ParserSpec ParserFacts ApiFacts ActionTypes ActionTypeFacts SortApi LogicWords LateDigit LateFacts.
Import ListNotations.
Open Scope nat_scope.
Open Scope list_scope.

(** ** Expressions without addTone *)

Definition typed_act (e : expr) : bool := match infer false (rt_of types_any) e with Some _ => true | None => false end.

Section Calm.
Variable call : positive -> bool.
Fixpoint calm (e : expr) : bool :=
  match e with
  | ELit _ | EClass _ | EAny | EPunct => true
  | ECall r => call r
  | ESeq a b | EChoice a b => calm a && calm b
  | EPlus a | EOpt a | EAnd a | ENot a | ESub a | ELabel _ a => calm a
  | EAction AAddTone _ _ => false
  | EAction _ _ a => calm a && typed_act e
  end.
End Calm.
Fixpoint calm_r (n : nat) (r : positive) : bool :=
  match n with O => false | S n' => calm (calm_r n') (r_body (toaq r)) end.

(** ** Expressions that panic within what they match *)

Section Snug.
Variable call : positive -> bool.
Variable quiet : positive -> bool.
Definition atom (e : expr) : bool := match e with ECall _ => true | _ => calm quiet e end.
Fixpoint snug (e : expr) : bool :=
  match e with
  | ELit _ | EClass _ | EAny | EPunct => true
  | ECall r => call r
  | ESeq a b => snug a && snug b
  | EChoice a b => snug a && atom a && (snug b || tone_choice a b)
  | EOpt a | EPlus a => snug a && atom a
  | EAnd a | ENot a => calm quiet a
  | ESub a | ELabel _ a => snug a
  | EAction AAddTone _ _ => false
  | EAction _ _ a => snug a && typed_act e
  end.
End Snug.
Fixpoint snug_r (base : list positive) (n : nat) (r : positive) : bool :=
  match n with O => false | S n' =>
    existsb (Pos.eqb r) base || snug (snug_r base n') (calm_r 12) (r_body (toaq r)) end.

Section Sound.
Variable is_punct : N -> bool.
Variable text : string.
Hypothesis Hp : punct_plain is_punct.

Notation sem := (@sem toaq is_punct text).
Notation star := (@star toaq is_punct text).
Notation vsem := (vsem toaq is_punct text).
Notation vstar := (vstar toaq is_punct text).
Notation spans := (spans text).

(** The two passes match the same text. *)
Lemma both :
  (forall e pos o, vsem e pos o -> forall res err, sem e pos res err ->
     match o with AOk p _ => exists k, res = Some (p, k) | AFail => res = None | APanic _ => True end) /\
  (forall e pos v o, vstar e pos v o -> forall p k err, star e pos p k err ->
     match o with AOk p' _ => p' = p | AFail => False | APanic _ => True end).
Proof.
  apply vsem_star_ind; intros.
  all: try match goal with A : sem ?e ?pos _ _, B : sem ?e ?pos _ _ |- _ => destruct (sem_det _ _ _ _ _ _ _ _ _ A B) as [-> _]; eauto; fail end.
  all: try (exact I).
  all: try match goal with K : sem (_ _ _) _ _ _ |- _ => inversion K; subst; clear K
                         | K : sem (_ _) _ _ _ |- _ => inversion K; subst; clear K
                         | K : sem (_ _ _ _) _ _ _ |- _ => inversion K; subst; clear K
                         | K : star _ _ _ _ _ |- _ => inversion K; subst; clear K end.
  all: repeat match goal with
       | H : stuck ?o = true |- match ?o with _ => _ end => destruct o; try discriminate H; clear H
       | IH : forall res err, sem ?e ?pos res err -> _, K : sem ?e ?pos _ _ |- _ => specialize (IH _ _ K); cbn beta iota in IH
       | IH : exists k, Some _ = Some _ |- _ => destruct IH as (? & IH); injection IH as ? ?; subst
       | IH : exists k, None = Some _ |- _ => destruct IH as (? & IH); discriminate IH
       | IH : Some _ = None |- _ => discriminate IH
       | IH : forall p k err, star ?e ?pos p k err -> _, K : star ?e ?pos _ _ _ |- _ => specialize (IH _ _ _ K); cbn beta iota in IH
       end; subst; eauto.
  - destruct o; [congruence|exact I|destruct H as (? & H); discriminate H].
  - destruct o; [contradiction|exact I|subst; eauto].
  - destruct o; [discriminate|exact I|]. destruct H as (? & H). injection H as <- <-. eauto.
Qed.

(** Other actions than addTone do not panic. *)
Lemma act_fine a args e pos p v en q : a <> AAddTone -> typed_act (EAction a args e) = true ->
  vsem e pos (AOk p (v, en)) -> run_action a args pos p en = Panic q -> False.
Proof.
  intros Na TA V R. unfold typed_act in TA.
  destruct (infer false (rt_of types_any) (EAction a args e)) as [[t te]|] eqn:Inf; [|discriminate TA]. cbn [infer] in Inf.
  destruct (infer false (rt_of types_any) e) as [[t1 te1]|] eqn:I1; [|discriminate].
  destruct (all_some (fun l => tget l te1) args) as [ts|] eqn:I2; [|discriminate].
  destruct (act_ty false a ts) as [t2|] eqn:I3; [|discriminate].
  destruct (proj1 (typed is_punct text false types_any types_fit ltac:(discriminate)) _ _ _ V _ _ I1) as [_ En].
  destruct (tgets_ok _ _ _ _ En I2) as (vs & G & Fv).
  rewrite <- (act_ty_nd a ts Na) in I3.
  pose proof (act_ty_ok true a ts t2 vs pos p I3 Fv) as R'. unfold run_action in R. rewrite G in R. rewrite R in R'.
  destruct R'; discriminate.
Qed.

Lemma calm_act call a args e : calm call (EAction a args e) = true -> a <> AAddTone /\ calm call e = true /\ typed_act (EAction a args e) = true.
Proof.
  intro H. assert (Na : a <> AAddTone) by (intros ->; discriminate H). split; [exact Na|].
  destruct a; try (cbn [calm] in H; apply andb_prop in H; exact H). congruence.
Qed.
Lemma snug_act call quiet a args e : snug call quiet (EAction a args e) = true ->
  a <> AAddTone /\ snug call quiet e = true /\ typed_act (EAction a args e) = true.
Proof.
  intro H. assert (Na : a <> AAddTone) by (intros ->; discriminate H). split; [exact Na|].
  destruct a; try (cbn [snug] in H; apply andb_prop in H; exact H). congruence.
Qed.

Lemma calm_ok :
  (forall e pos o, vsem e pos o -> forall n q, calm (calm_r n) e = true -> o <> APanic q) /\
  (forall e pos v o, vstar e pos v o -> forall n q, calm (calm_r n) e = true -> o <> APanic q).
Proof.
  apply vsem_star_ind; intros; try discriminate;
    try match goal with H : calm _ (EAction _ _ _) = true |- _ => apply calm_act in H; destruct H as (? & ? & ?) end;
    cbn [calm] in *; repeat match goal with H : (_ && _)%bool = true |- _ => apply andb_prop in H; destruct H end; eauto.
  - destruct n as [|n]; [discriminate|]. cbn [calm_r] in *. intros [= ->]. exact (H n q0 ltac:(assumption) eq_refl).
  - intros _. eapply act_fine; eassumption.
Qed.

(** What is matched has a digit after two letters. *)
Definition cram (pos p : nat) : Prop := exists l, spans pos p l /\ crammed l.

Lemma cram_left pos p1 p l : cram pos p1 -> spans p1 p l -> cram pos p.
Proof.
  intros (m & A & u & a & b & d & v & -> & C) B. eexists. split; [eapply spans_app; eassumption|].
  exists u, a, b, d, (v ++ l). rewrite <- app_assoc. auto.
Qed.
Lemma cram_right pos p1 p l : spans pos p1 l -> cram p1 p -> cram pos p.
Proof.
  intros A (m & B & u & a & b & d & v & -> & C). eexists. split; [eapply spans_app; eassumption|].
  exists (l ++ u), a, b, d, v. rewrite app_assoc. auto.
Qed.

Definition tight (r : positive) : Prop :=
  forall pos q p k err, vsem (ECall r) pos (APanic q) -> sem (ECall r) pos (Some (p, k)) err -> cram pos p.

Lemma atom_ok n e pos q err : atom (calm_r n) e = true -> vsem e pos (APanic q) -> ~ sem e pos None err.
Proof.
  intros A V K. destruct e; try (cbn [atom] in A; exact (proj1 calm_ok _ _ _ V n q A eq_refl)).
  inversion V; subst. match goal with X : sem (ECall _) pos (Some _) _ |- _ => destruct (sem_det _ _ _ _ _ _ _ _ _ X K) as [Y _]; discriminate Y end.
Qed.

Ltac bad := match goal with H : stuck _ = true |- _ => discriminate H | H : terminal _ = true |- _ => discriminate H end.
Ltac meet e l Sl :=
  match goal with V : vsem e ?pos (AOk _ _), K : sem e ?pos (Some _) _ |- _ =>
    let k := fresh in let X := fresh in
    destruct (proj1 both _ _ _ V _ _ K) as (k & X); injection X as ? ?; subst;
    destruct (proj1 (sem_spans is_punct text) _ _ _ _ K ltac:(assumption) _ _ eq_refl) as (l & Sl) end.

Lemma snug_ok base : (forall r, In r base -> tight r) ->
  (forall e pos o, vsem e pos o -> forall n q p k err, terms_ok e = true -> snug (snug_r base n) (calm_r 12) e = true ->
     o = APanic q -> sem e pos (Some (p, k)) err -> cram pos p) /\
  (forall e pos v o, vstar e pos v o -> forall n q p k err, terms_ok e = true -> snug (snug_r base n) (calm_r 12) e = true ->
     atom (calm_r 12) e = true -> o = APanic q -> star e pos p k err -> cram pos p).
Proof.
  intro HB. apply vsem_star_ind; intros; try discriminate;
    try match goal with H : snug _ _ (EAction _ _ _) = true |- _ => apply snug_act in H; destruct H as (? & ? & ?) end;
    cbn [snug terms_ok] in *; repeat match goal with H : (_ && _)%bool = true |- _ => apply andb_prop in H; destruct H end;
    repeat match goal with H : APanic _ = APanic _ |- _ => injection H as H end; subst; try discriminate.
  - (* a call *)
    destruct n as [|n]; [discriminate|]. cbn [snug_r] in *.
    match goal with K : (_ || _)%bool = true |- _ => apply orb_prop in K; destruct K as [K|K] end.
    + apply existsb_exists in H1. destruct H1 as (r' & I & Er). apply Pos.eqb_eq in Er. subst r'.
      eapply (HB r I); [eapply VCallP; eassumption|eassumption].
    + match goal with K : sem (ECall r) pos (Some (p0, _)) _ |- _ => inversion K; subst end.
      eapply H; [exact (proj1 (rule_look r []))|eassumption|reflexivity|eassumption].
  - match goal with K : sem (ESeq _ _) _ _ _ |- _ => inversion K; subst end.
    match goal with K : sem b _ _ _ |- _ => destruct (proj1 (sem_spans is_punct text) _ _ _ _ K ltac:(assumption) _ _ eq_refl) as (l & Sl) end.
    eapply cram_left; [eapply H; eauto|exact Sl].
  - match goal with K : sem (ESeq _ _) _ _ _ |- _ => inversion K; subst end.
    meet a l Sl.
    eapply cram_right; [exact Sl|]. eapply H0; eauto.
  - match goal with K : sem (EChoice _ _) _ _ _ |- _ => inversion K; subst end; [eapply H; eauto|].
    match goal with K : sem a pos None _ |- _ => exfalso; eapply atom_ok; eassumption end.
  - match goal with K : sem (EChoice _ _) _ _ _ |- _ => inversion K; subst end.
    { match goal with K : sem a _ _ _ |- _ => pose proof (proj1 both _ _ _ v _ _ K) as X; discriminate X end. }
    match goal with K : (_ || _)%bool = true |- _ => apply orb_prop in K; destruct K as [K|K] end; [eapply H0; eauto|].
    match goal with K : tone_choice a b = true |- _ => rename K into TC end.
    destruct a; try discriminate TC.
    destruct (tone_panic_at is_punct text r b pos q TC H7 v v0) as (p' & l & A & B & ac & args & e & w & -> & V).
    match goal with K : sem (EAction _ _ _) _ _ _ |- _ => inversion K; subst end.
    match goal with K : sem e _ _ _ |- _ => destruct (proj1 both _ _ _ V _ _ K) as (k' & X); injection X as -> -> end.
    exists l. auto.
  - match goal with K : sem (EPlus _) _ _ _ |- _ => inversion K; subst end.
    meet e l Sl.
    eapply cram_right; [exact Sl|]. eapply H0; eauto.
  - match goal with K : sem (EPlus _) _ _ _ |- _ => inversion K; subst end.
    match goal with K : star e _ _ _ _ |- _ => destruct (proj2 (sem_spans is_punct text) _ _ _ _ _ K ltac:(assumption)) as (l & Sl) end.
    eapply cram_left; [eapply H; eauto|exact Sl].
  - match goal with K : sem (EOpt _) _ _ _ |- _ => inversion K; subst end; [eapply H; eauto|].
    match goal with K : sem e _ None _ |- _ => exfalso; eapply atom_ok; eassumption end.
  - exfalso. match goal with K : calm _ e = true, V : vsem e _ _ |- _ => exact (proj1 calm_ok _ _ _ V 12 _ K eq_refl) end.
  - exfalso. match goal with K : calm _ e = true, V : vsem e _ _ |- _ => exact (proj1 calm_ok _ _ _ V 12 _ K eq_refl) end.
  - match goal with K : sem (ESub _) _ _ _ |- _ => inversion K; subst end. eapply H; eauto.
  - match goal with K : sem (ELabel _ _) _ _ _ |- _ => inversion K; subst end. eapply H; eauto.
  - exfalso. eapply act_fine; eassumption.
  - match goal with K : sem (EAction _ _ _) _ _ _ |- _ => inversion K; subst end. eapply H; eauto.
  - match goal with K : star _ _ _ _ _ |- _ => inversion K; subst end.
    + exfalso. eapply atom_ok; eassumption.
    + match goal with K : star e _ _ _ _ |- _ => destruct (proj2 (sem_spans is_punct text) _ _ _ _ _ K ltac:(assumption)) as (l & Sl) end.
      eapply cram_left; [eapply H; eauto|exact Sl].
  - match goal with K : star _ _ _ _ _ |- _ => inversion K; subst end.
    + match goal with K : sem e _ None _ |- _ => destruct (proj1 both _ _ _ v0 _ _ K) as (k' & X); discriminate X end.
    + meet e l Sl.
      eapply cram_right; [exact Sl|]. eapply H0; eauto.
Qed.

Lemma snug_tight base n r : (forall r, In r base -> tight r) -> snug_r base n r = true -> tight r.
Proof.
  intros HB H pos q p k err V S. destruct n as [|n]; [discriminate|].
  eapply (proj1 (snug_ok base HB) _ _ _ V (Datatypes.S n)); [reflexivity|exact H|reflexivity|exact S].
Qed.

Lemma syllable_tight : tight 84.
Proof. apply (snug_tight [] 12); [intros r []|vm_compute; reflexivity]. Qed.
Lemma compound_tight : tight 126.
Proof. apply (snug_tight [] 12); [intros r []|vm_compute; reflexivity]. Qed.
Lemma function_calm pos q : ~ vsem (ECall 102) pos (APanic q).
Proof. intro V. refine (proj1 calm_ok _ _ _ V 12 q _ eq_refl). vm_compute. reflexivity. Qed.

(** A word with more than one syllable, or another word than a function word. *)
Lemma content_tight : tight 81.
Proof.
  intros pos q p k err V S.
  assert (EB : r_body (toaq 81) = EChoice (ESeq (ECall 84) (EPlus (ECall 126))) (ESeq (ENot (ECall 102)) (ECall 84))) by (vm_compute; reflexivity).
  inversion V; subst. match goal with K : vsem (r_body _) _ _ |- _ => rewrite EB in K; rename K into VB end.
  inversion S; subst. match goal with K : sem (r_body _) _ _ _ |- _ => rewrite EB in K; rename K into SB end.
  clear V S EB.
  assert (TP : terms_ok (EPlus (ECall 126)) = true) by reflexivity.
  assert (Plus : forall i q p k err, vsem (EPlus (ECall 126)) i (APanic q) -> sem (EPlus (ECall 126)) i (Some (p, k)) err -> cram i p).
  { intros i q' p' k' err' V S. refine (proj1 (snug_ok [126%positive] _) _ _ _ V 12 _ _ _ _ eq_refl _ eq_refl S); [|vm_compute; reflexivity].
    intros r [<-|[]]. exact compound_tight. }
  assert (Fin : forall i q err, vsem (EPlus (ECall 126)) i (APanic q) -> ~ sem (EPlus (ECall 126)) i None err).
  { intros i q' err' V S. inversion S; subst. inversion V; subst.
    - match goal with A : vsem (ECall 126) i (AOk _ _), B : sem (ECall 126) i None _ |- _ => destruct (proj1 both _ _ _ A _ _ B) as (? & X); discriminate X end.
    - match goal with A : vsem (ECall 126) i (APanic _), B : sem (ECall 126) i None _ |- _ => exact (atom_ok 12 (ECall 126) _ _ _ eq_refl A B) end. }
  (* the second alternative *)
  assert (Second : forall q, vsem (ECall 84) pos (APanic q) -> forall p k err, sem (ESeq (ENot (ECall 102)) (ECall 84)) pos (Some (p, k)) err -> cram pos p).
  { intros q' A p' k' err' B. inversion B; subst. match goal with K : sem (ENot _) _ _ _ |- _ => inversion K; subst end. eapply syllable_tight; eassumption. }
  inversion VB; subst.
  - match goal with K : vsem (ESeq (ECall 84) _) _ _ |- _ => inversion K; subst; try bad end.
    + inversion SB; subst; [|eapply Second; eassumption].
      match goal with K : sem (ESeq (ECall 84) _) _ _ _ |- _ => inversion K; subst end.
      match goal with K : sem (EPlus _) _ _ _ |- _ => destruct (proj1 (sem_spans is_punct text) _ _ _ _ K TP _ _ eq_refl) as (l & Sl) end.
      eapply cram_left; [eapply syllable_tight; eassumption|exact Sl].
    + inversion SB; subst.
      * match goal with K : sem (ESeq (ECall 84) _) _ _ _ |- _ => inversion K; subst end.
        match goal with A : vsem (ECall 84) pos (AOk _ _), K : sem (ECall 84) pos (Some _) _ |- _ =>
          destruct (proj1 both _ _ _ A _ _ K) as (? & X); injection X as ? ?; subst;
          destruct (proj1 (sem_spans is_punct text) _ _ _ _ K eq_refl _ _ eq_refl) as (l & Sl) end.
        eapply cram_right; [exact Sl|]. eapply Plus; eassumption.
      * exfalso. match goal with K : sem (ESeq (ECall 84) _) _ None _ |- _ => inversion K; subst end;
          match goal with A : vsem (ECall 84) pos (AOk _ _), K : sem (ECall 84) pos _ _ |- _ =>
            destruct (proj1 both _ _ _ A _ _ K) as (? & X); inversion X; subst end.
        eapply Fin; eassumption.
  - match goal with K : vsem (ESeq (ENot _) _) _ _ |- _ => inversion K; subst end.
    + exfalso. match goal with K : vsem (ENot _) _ _ |- _ => inversion K; subst; try bad end. eapply function_calm; eassumption.
    + match goal with K : vsem (ENot _) _ _ |- _ => inversion K; subst; try bad end.
      inversion SB; subst; [|eapply Second; eassumption].
      match goal with A : vsem (ESeq (ECall 84) _) _ AFail, K : sem (ESeq (ECall 84) _) _ (Some _) _ |- _ =>
        pose proof (proj1 both _ _ _ A _ _ K) as X; discriminate X end.
Qed.

Lemma word_tight : tight r_word.
Proof.
  apply (snug_tight [81%positive] 12); [|vm_compute; reflexivity]. intros r [<-|[]]. exact content_tight.
Qed.

Lemma word_look : kc (toaq_lk r_word) = true.
Proof. vm_compute. reflexivity. Qed.

Lemma spanned i j l : spans i j l -> runes (slice text i j) = l.
Proof.
  intro A. destruct (spans_text _ _ _ _ A) as [E V]. unfold slice. rewrite E. apply runes_back. exact V.
Qed.

(** Word with an offset in the text: a value, a panic or an error, and a panic exactly if
    what the rule matches has such a digit. *)
Lemma word_late offs p : reach is_punct text p -> (offs <= String.length text)%nat ->
  (exists w q k err, fst (word_at is_punct offs p) = Ok (Got (w, Z.of_nat q - Z.of_nat offs)%Z) /\
     sem (ECall r_word) offs (Some (q, k)) err /\ ~ late_digit (slice text offs q)) \/
  (exists q k err, fst (word_at is_punct offs p) = Panic PRuntime /\
     sem (ECall r_word) offs (Some (q, k)) err /\ late_digit (slice text offs q)) \/
  (exists e err, fst (word_at is_punct offs p) = Ok (Err e) /\ sem (ECall r_word) offs None err).
Proof.
  intros R Ho. pose proof (proj1 (word_ok is_punct text offs p (reach_pinv _ _ _ R))) as W.
  remember (fst (word_at is_punct offs p)) as o eqn:Eo. destruct W; [lia| | | |].
  - left. do 4 eexists. split; [reflexivity|]. split; [eassumption|].
    match goal with V : vsem _ _ _ |- _ => destruct (proj1 (looked is_punct text Hp) _ _ _ V eq_refl _ _ _ eq_refl) as [(l & A & K) _] end.
    unfold late_digit. rewrite (spanned _ _ _ A). destruct K as (_ & _ & _ & K & _). exact (proj1 (K word_look)).
  - right. left. pose proof (proj2 (panics_only_digits is_punct text p R)) as PO.
    assert (Q : q = PRuntime) by (eapply PO; eauto). subst q. do 3 eexists. split; [reflexivity|]. split; [eassumption|].
    match goal with V : vsem _ _ (APanic _), S : sem _ _ (Some _) _ |- _ => destruct (word_tight _ _ _ _ _ V S) as (l & A & C) end.
    unfold late_digit. rewrite (spanned _ _ _ A). exact C.
  - exfalso. match goal with V : vsem _ _ (AOk _ _), N : forall w, _ <> _ |- _ => destruct (word_typed is_punct text _ _ V) as (w & -> & _); exact (N w eq_refl) end.
  - right. right. eauto.
Qed.

Lemma word_exact p offs : reach is_punct text p -> (offs <= String.length text)%nat ->
  (fst (word_at is_punct offs p) = Panic PRuntime <->
     exists q k err, sem (ECall r_word) offs (Some (q, k)) err /\ late_digit (slice text offs q)) /\
  ((exists w n, fst (word_at is_punct offs p) = Ok (Got (w, n))) <->
     exists q k err, sem (ECall r_word) offs (Some (q, k)) err /\ ~ late_digit (slice text offs q)) /\
  ((exists e, fst (word_at is_punct offs p) = Ok (Err e)) <-> exists err, sem (ECall r_word) offs None err) /\
  (forall w n, fst (word_at is_punct offs p) = Ok (Got (w, n)) ->
     exists q, n = (Z.of_nat q - Z.of_nat offs)%Z /\ offs <= q <= String.length text /\ ~ late_digit (slice text offs q)).
Proof.
  intros R Ho.
  assert (Le : forall q k err, sem (ECall r_word) offs (Some (q, k)) err -> offs <= q <= String.length text).
  { intros q k err K. exact (proj1 (sem_some _ _ _ _ _ _ toaq_wf _ _ _ _ _ K Ho)). }
  assert (D : forall r1 e1 r2 e2, sem (ECall r_word) offs r1 e1 -> sem (ECall r_word) offs r2 e2 -> r1 = r2).
  { intros r1 e1 r2 e2 A B. exact (proj1 (sem_det _ _ _ _ _ _ _ _ _ A B)). }
  destruct (word_late offs p R Ho) as [(w & q & k & err & -> & K & L)|[(q & k & err & -> & K & L)|(e & err & -> & K)]].
  - split; [split; [discriminate|]|split; [split; [intros _; exists q, k, err; auto|eauto]|split; [split; [intros (e & E); discriminate E|]|]]].
    + intros (q' & k' & err' & K' & L'). pose proof (D _ _ _ _ K K') as X. injection X as -> ->. contradiction.
    + intros (err' & K'). pose proof (D _ _ _ _ K K') as X. discriminate X.
    + intros w' n [= <- <-]. exists q. eauto.
  - split; [split; [intros _; exists q, k, err; auto|reflexivity]|split; [split; [intros (w & n & E); discriminate E|]|split; [split; [intros (e & E); discriminate E|]|]]].
    + intros (q' & k' & err' & K' & L'). pose proof (D _ _ _ _ K K') as X. injection X as -> ->. contradiction.
    + intros (err' & K'). pose proof (D _ _ _ _ K K') as X. discriminate X.
    + intros w n E. discriminate E.
  - split; [split; [discriminate|]|split; [split; [intros (w & n & E); discriminate E|]|split; [split; eauto|]]].
    + intros (q' & k' & err' & K' & L'). pose proof (D _ _ _ _ K K') as X. discriminate X.
    + intros (q' & k' & err' & K' & L'). pose proof (D _ _ _ _ K K') as X. discriminate X.
    + intros w n E. discriminate E.
Qed.
End Sound.

(* the digit after two letters, at the start and after the first word; a digit after one
   letter; the function word tio, whose digit is not part of the word *)
Definition word_end (o : res (outcome (word * Z))) : option (option Z) :=
  match o with Ok (Got (_, n)) => Some (Some n) | Panic PRuntime => Some None | _ => None end.
Lemma word_late_case :
  map (fun x => word_end (fst (word_at ascii_punct (snd x) (new_parser (fst x)))))
    [("jai4 ji/", 0); ("ji/ jai4", 4); ("ji/ jai4", 0); ("pu4a ji2", 0); ("tio4 ji2", 0); ("jai4jai1 da", 0); ("jai/jai1 da", 0)]%string =
  [Some None; Some None; Some (Some 4%Z); Some (Some 5%Z); Some (Some 3%Z); Some None; Some None].
Proof. vm_compute. reflexivity. Qed.
