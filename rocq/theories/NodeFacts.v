(** The Node pass, run on the table that a complete Accepts pass left behind, builds
    exactly the tree that the PEG semantics gives. *)

From Coq Require Import String Ascii NArith ZArith PArith List Bool FMapPositive Lia PeanoNat.
From Verif Require Import Base Utf8 Utf8Facts PegSyntax Peg PegSpec PegFacts.
Import ListNotations.
Open Scope Z_scope.

Section NodeFacts.

Variable G : positive -> rule.
Variable is_punct : N -> bool.
Variable text : string.
Variable nullable : positive -> bool.
Variable rank : positive -> nat.
Variable maxrank : nat.
Hypothesis wf : forall r, wf_rule G nullable rank maxrank r = true.

Notation sem := (@sem G is_punct text).
Notation star := (@star G is_punct text).
Notation L := (String.length text).
Notation cons := (cons G is_punct text).

(** ** The table is closed *)

(** [uses e pos r p]: matching [e] at [pos] tries rule [r] at [p]. *)
Inductive uses : expr -> nat -> positive -> nat -> Prop :=
  | UCall r pos : uses (ECall r) pos r pos
  | USeq1 a b pos r p : uses a pos r p -> uses (ESeq a b) pos r p
  | USeq2 a b pos p1 k1 e1 r p : sem a pos (Some (p1, k1)) e1 -> uses b p1 r p -> uses (ESeq a b) pos r p
  | UChoice1 a b pos r p : uses a pos r p -> uses (EChoice a b) pos r p
  | UChoice2 a b pos e1 r p : sem a pos None e1 -> uses b pos r p -> uses (EChoice a b) pos r p
  | UPlus1 a pos r p : uses a pos r p -> uses (EPlus a) pos r p
  | UPlus2 a pos p1 k1 e1 r p : sem a pos (Some (p1, k1)) e1 -> uses (EPlus a) p1 r p -> uses (EPlus a) pos r p
  | UOpt a pos r p : uses a pos r p -> uses (EOpt a) pos r p
  | UAnd a pos r p : uses a pos r p -> uses (EAnd a) pos r p
  | UNot a pos r p : uses a pos r p -> uses (ENot a) pos r p
  | USub a pos r p : uses a pos r p -> uses (ESub a) pos r p
  | ULabel l a pos r p : uses a pos r p -> uses (ELabel l a) pos r p
  | UAction t args a pos r p : uses a pos r p -> uses (EAction t args a) pos r p.

Definition has (st : mst) (r : positive) (pos : nat) : Prop := m2_get (s_delta st) r pos <> None.

Definition closed (st : mst) : Prop :=
  forall r pos r' p', has st r pos -> uses (r_body (G r)) pos r' p' -> has st r' p'.

Definition ext (st st' : mst) : Prop := forall r pos, has st r pos -> has st' r pos.

Lemma ext_refl st : ext st st.
Proof. intros r pos H. exact H. Qed.
Lemma ext_trans a b c : ext a b -> ext b c -> ext a c.
Proof. intros H1 H2 r pos H. apply H2, H1, H. Qed.

Lemma closed0 : closed mst0.
Proof. intros r pos r' p' H. exfalso. apply H. apply m2_get_empty. Qed.

Lemma has_set st r pos d err r' pos' :
  has (Mst (m2_set (s_delta st) r pos d) err) r' pos' <-> (r', pos') = (r, pos) \/ has st r' pos'.
Proof.
  unfold has. cbn [s_delta]. destruct (key_dec r r' pos pos') as [E|N].
  - injection E as -> ->. rewrite m2_gss. split; [auto|intros _; discriminate].
  - rewrite m2_gso by exact N. split; [auto|]. intros [E|H]; [contradiction|exact H].
Qed.

Definition call_closed (call : positive -> nat -> mst -> option (Z * Z * mst)) : Prop :=
  forall r pos st dp de st', call r pos st = Some (dp, de, st') -> (pos <= L)%nat -> cons st -> closed st ->
    closed st' /\ ext st st' /\ has st' r pos.

Notation loop call e1 :=
  (fix loop (n : nat) (pos : nat) (perr : Z) (st : mst) {struct n} : ares :=
     match n with
     | O => None
     | S n' =>
         match acc is_punct text call e1 pos perr st with
         | Some (Some pos1, perr1, st1) => loop n' pos1 perr1 st1
         | Some (None, perr1, st1) => Some (Some pos, perr1, st1)
         | None => None
         end
     end).

Lemma sem_same e pos r1 e1 r2 e2 : sem e pos r1 e1 -> sem e pos r2 e2 -> r1 = r2.
Proof. intros H1 H2. apply (sem_det _ _ _ _ _ _ _ _ _ H1 H2). Qed.

Lemma acc_closed call : call_sound G is_punct text call -> call_closed call ->
  forall e pos perr st o perr' st',
  acc is_punct text call e pos perr st = Some (o, perr', st') -> (pos <= L)%nat -> cons st -> closed st -> -1 <= perr ->
  closed st' /\ ext st st' /\ forall r p, uses e pos r p -> has st' r p.
Proof.
  intros Hs Hc.
  assert (Hsound := acc_sound G is_punct text nullable rank maxrank wf call Hs).
  assert (Hb : forall e pos perr st o perr' st', acc is_punct text call e pos perr st = Some (o, perr', st') ->
    (pos <= L)%nat -> cons st -> -1 <= perr ->
    cons st' /\ -1 <= perr' /\ exists res err, sem e pos res err /\ o = option_map fst res /\
    match res with Some (p, _) => (pos <= p <= L)%nat | None => True end).
  { intros e pos perr st o perr' st' H Hp Hst Hperr. destruct (Hsound _ _ _ _ _ _ _ H Hp Hst Hperr) as (H1 & res & err & H2 & H3 & H4).
    split; [exact H1|]. split; [lia|]. exists res, err. split; [exact H2|]. split; [exact H3|].
    destruct res as [[p k]|]; [|exact I]. destruct (sem_some _ _ _ _ _ _ wf _ _ _ _ _ H2 Hp). assumption. }
  induction e; intros pos perr st o perr' st' H Hp Hst Hcl Hperr; cbn [acc] in H.
  1-4: assert (st' = st) by
    (unfold acc_fail in H; repeat match type of H with
     | context[if ?b then _ else _] => destruct b
     | context[let (_, _) := ?b in _] => destruct b
     end; injection H; congruence); subst st';
    (split; [exact Hcl|]; split; [apply ext_refl|]; intros r0 p0 U; inversion U).
  - destruct (call r pos st) as [[[dp de] st1]|] eqn:E; [|discriminate].
    destruct (Hc _ _ _ _ _ _ E Hp Hst Hcl) as (H1 & H2 & H3).
    assert (st' = st1) by (destruct (dp <? 0); injection H; congruence). subst st'.
    split; [exact H1|]. split; [exact H2|]. intros r0 p0 U. inversion U; subst. exact H3.
  - destruct (acc is_punct text call e1 pos perr st) as [[[o1 pe1] st1]|] eqn:E1; [|discriminate].
    destruct (IHe1 _ _ _ _ _ _ E1 Hp Hst Hcl Hperr) as (C1 & X1 & U1).
    destruct (Hb _ _ _ _ _ _ _ E1 Hp Hst Hperr) as (Hst1 & Hpe1 & res1 & err1 & S1 & -> & B1).
    destruct res1 as [[p1 k1]|]; cbn [option_map fst] in H.
    + destruct (IHe2 _ _ _ _ _ _ H ltac:(lia) Hst1 C1 Hpe1) as (C2 & X2 & U2).
      split; [exact C2|]. split; [eapply ext_trans; eassumption|].
      intros r0 p0 U. inversion U; subst; [apply X2, U1; assumption|].
      pose proof (sem_same _ _ _ _ _ _ H2 S1) as Eq. injection Eq as -> ->. apply U2. assumption.
    + injection H as <- <- <-. split; [exact C1|]. split; [exact X1|].
      intros r0 p0 U. inversion U; subst; [apply U1; assumption|].
      pose proof (sem_same _ _ _ _ _ _ H1 S1). discriminate.
  - destruct (acc is_punct text call e1 pos perr st) as [[[o1 pe1] st1]|] eqn:E1; [|discriminate].
    destruct (IHe1 _ _ _ _ _ _ E1 Hp Hst Hcl Hperr) as (C1 & X1 & U1).
    destruct (Hb _ _ _ _ _ _ _ E1 Hp Hst Hperr) as (Hst1 & Hpe1 & res1 & err1 & S1 & -> & B1).
    destruct res1 as [[p1 k1]|]; cbn [option_map fst] in H.
    + injection H as <- <- <-. split; [exact C1|]. split; [exact X1|].
      intros r0 p0 U. inversion U; subst; [apply U1; assumption|].
      pose proof (sem_same _ _ _ _ _ _ H1 S1). discriminate.
    + destruct (IHe2 _ _ _ _ _ _ H Hp Hst1 C1 Hpe1) as (C2 & X2 & U2).
      split; [exact C2|]. split; [eapply ext_trans; eassumption|].
      intros r0 p0 U. inversion U; subst; [apply X2, U1; assumption|]. apply U2. assumption.
  - destruct (acc is_punct text call e pos perr st) as [[[o1 pe1] st1]|] eqn:E1; [|discriminate].
    destruct (IHe _ _ _ _ _ _ E1 Hp Hst Hcl Hperr) as (C1 & X1 & U1).
    destruct (Hb _ _ _ _ _ _ _ E1 Hp Hst Hperr) as (Hst1 & Hpe1 & res1 & err1 & S1 & -> & B1).
    destruct res1 as [[p1 k1]|]; cbn [option_map fst] in H.
    + assert (HL : forall n p perr st, loop call e n p perr st = Some (o, perr', st') -> (p <= L)%nat -> cons st -> closed st -> -1 <= perr ->
        closed st' /\ ext st st' /\ forall r0 p0, uses (EPlus e) p r0 p0 -> has st' r0 p0).
      { clear - IHe Hb wf. induction n as [|n IHn]; intros p perr st H Hp Hst Hcl Hperr; [discriminate|].
        destruct (acc is_punct text call e p perr st) as [[[o1 pe1] st1]|] eqn:E1; [|discriminate].
        destruct (IHe _ _ _ _ _ _ E1 Hp Hst Hcl Hperr) as (C1 & X1 & U1).
        destruct (Hb _ _ _ _ _ _ _ E1 Hp Hst Hperr) as (Hst1 & Hpe1 & res1 & err1 & S1 & -> & B1).
        destruct res1 as [[p1 k1]|]; cbn [option_map fst] in H.
        - destruct (IHn _ _ _ H ltac:(lia) Hst1 C1 Hpe1) as (C2 & X2 & U2).
          split; [exact C2|]. split; [eapply ext_trans; eassumption|].
          intros r0 p0 U. inversion U; subst; [apply X2, U1; assumption|].
          match goal with HH : PegSpec.sem e p _ _ |- _ => pose proof (sem_same _ _ _ _ _ _ HH S1) as Eq end.
          injection Eq as -> ->. apply U2. assumption.
        - injection H as <- <- <-. split; [exact C1|]. split; [exact X1|].
          intros r0 p0 U. inversion U; subst; [apply U1; assumption|].
          match goal with HH : PegSpec.sem e _ (Some _) _ |- _ => pose proof (sem_same _ _ _ _ _ _ HH S1); discriminate end. }
      destruct (HL (S L) _ _ _ H ltac:(lia) Hst1 C1 Hpe1) as (C2 & X2 & U2).
      split; [exact C2|]. split; [eapply ext_trans; eassumption|].
      intros r0 p0 U. inversion U; subst; [apply X2, U1; assumption|].
      match goal with HH : PegSpec.sem e pos _ _ |- _ => pose proof (sem_same _ _ _ _ _ _ HH S1) as Eq end.
      injection Eq as -> ->. apply U2. assumption.
    + injection H as <- <- <-. split; [exact C1|]. split; [exact X1|].
      intros r0 p0 U. inversion U; subst; [apply U1; assumption|].
      match goal with HH : PegSpec.sem e _ (Some _) _ |- _ => pose proof (sem_same _ _ _ _ _ _ HH S1); discriminate end.
  - destruct (acc is_punct text call e pos perr st) as [[[o1 pe1] st1]|] eqn:E1; [|discriminate].
    destruct (IHe _ _ _ _ _ _ E1 Hp Hst Hcl Hperr) as (C1 & X1 & U1).
    assert (st' = st1) by (destruct o1; injection H; congruence). subst st'.
    split; [exact C1|]. split; [exact X1|]. intros r0 p0 U. inversion U; subst. auto.
  - destruct (acc is_punct text call e pos perr st) as [[[o1 pe1] st1]|] eqn:E1; [|discriminate].
    destruct (IHe _ _ _ _ _ _ E1 Hp Hst Hcl Hperr) as (C1 & X1 & U1).
    assert (st' = st1) by (unfold acc_fail in H; destruct o1; injection H; congruence). subst st'.
    split; [exact C1|]. split; [exact X1|]. intros r0 p0 U. inversion U; subst. auto.
  - destruct (acc is_punct text call e pos perr st) as [[[o1 pe1] st1]|] eqn:E1; [|discriminate].
    destruct (IHe _ _ _ _ _ _ E1 Hp Hst Hcl Hperr) as (C1 & X1 & U1).
    assert (st' = st1) by (unfold acc_fail in H; destruct o1; injection H; congruence). subst st'.
    split; [exact C1|]. split; [exact X1|]. intros r0 p0 U. inversion U; subst. auto.
  - destruct (IHe _ _ _ _ _ _ H Hp Hst Hcl Hperr) as (C1 & X1 & U1).
    split; [exact C1|]. split; [exact X1|]. intros r0 p0 U. inversion U; subst. auto.
  - destruct (IHe _ _ _ _ _ _ H Hp Hst Hcl Hperr) as (C1 & X1 & U1).
    split; [exact C1|]. split; [exact X1|]. intros r0 p0 U. inversion U; subst. auto.
  - destruct (IHe _ _ _ _ _ _ H Hp Hst Hcl Hperr) as (C1 & X1 & U1).
    split; [exact C1|]. split; [exact X1|]. intros r0 p0 U. inversion U; subst. auto.
Qed.

Lemma accepts_closed fuel : call_closed (accepts G is_punct text fuel).
Proof.
  induction fuel as [|fuel IH]; intros r pos st dp de st' H Hp Hst Hcl; cbn [accepts] in H; [discriminate|].
  destruct (memo st r pos) as [[dp0 de0]|] eqn:Em.
  - injection H as <- <- <-. split; [exact Hcl|]. split; [apply ext_refl|].
    unfold memo, delta in Em. unfold has. destruct (m2_get (s_delta st) r pos); [discriminate|]. cbn in Em. discriminate.
  - destruct (acc is_punct text (accepts G is_punct text fuel) (r_body (G r)) pos (-1) st) as [[[o perr] st1]|] eqn:E; [|discriminate].
    destruct (acc_closed _ (accepts_sound _ _ _ _ _ _ wf fuel) IH _ _ _ _ _ _ _ E Hp Hst Hcl ltac:(lia)) as (C1 & X1 & U1).
    assert (Hst' : exists d err, st' = Mst (m2_set (s_delta st1) r pos d) err).
    { unfold memoize in H. destruct o as [p|]; [destruct (0 <=? Z.of_nat p)|]; cbn in H; injection H as <- <- <-; eauto. }
    destruct Hst' as (d & err & ->). split; [|split].
    + intros r1 p1 r2 p2 H1 U. apply has_set. apply has_set in H1. destruct H1 as [H1|H1].
      * injection H1 as -> ->. right. apply U1. exact U.
      * right. eapply C1; eassumption.
    + intros r1 p1 H1. apply has_set. right. apply X1. exact H1.
    + apply has_set. left. reflexivity.
Qed.

(** ** Node *)

Variable ds : mst.
Hypothesis Hds : cons ds.
Hypothesis Hclosed : closed ds.

(** Everything in the node table is the node of a successful match. *)
Definition ninv (st : nst) : Prop :=
  forall r pos n, m2_get st r pos = Some n ->
    has ds r pos /\ exists p err, sem (ECall r) pos (Some (p, [n])) err.

Lemma ninv0 : ninv m2_empty.
Proof. intros r pos n H. rewrite m2_get_empty in H. discriminate. Qed.

Lemma has_delta r pos res err : has ds r pos -> sem (ECall r) pos res err -> (pos <= L)%nat ->
  fst (delta ds r pos) = enc1 pos res.
Proof.
  intros H Hs Hp. unfold has in H. unfold delta. destruct (m2_get (s_delta ds) r pos) as [[dp de]|] eqn:E; [|contradiction].
  destruct (Hds _ _ _ _ E) as (_ & res' & err' & Hs' & -> & ->). rewrite (sem_same _ _ _ _ _ _ Hs' Hs). reflexivity.
Qed.

Definition kid_of (res : option (nat * list pnode)) : option (nat * pnode) :=
  match res with Some (p, [n]) => Some (p, n) | _ => None end.

(** [call] gives the right answer for rules of rank below [k] at [pos0], and later. *)
Definition ncall_ok (call : positive -> nat -> nst -> option (option (nat * pnode) * nst)) (pos0 k : nat) : Prop :=
  forall r pos st res err, (pos0 <= pos <= L)%nat -> (pos = pos0 -> (rank r < k)%nat) -> has ds r pos ->
    ninv st -> sem (ECall r) pos res err ->
    exists st', call r pos st = Some (kid_of res, st') /\ ninv st'.

Notation nloop call e1 :=
  (fix loop (n : nat) (pos : nat) (ks : list pnode) (st : nst) {struct n} : nres :=
     match n with
     | O => None
     | S n' =>
         match nod is_punct text call e1 pos st with
         | Some (Some (pos1, k1), st1) => loop n' pos1 (ks ++ k1) st1
         | Some (None, st1) => Some (Some (pos, ks), st1)
         | None => None
         end
     end).

Lemma sem_call_shape r pos p k err : sem (ECall r) pos (Some (p, k)) err -> exists n, k = [n].
Proof. intro H. inversion H; subst. eauto. Qed.

Lemma nod_ok_all call pos0 k : ncall_ok call pos0 k ->
  (forall e pos res err, sem e pos res err ->
     forall st, (pos0 <= pos <= L)%nat -> (pos = pos0 -> left_ok nullable rank k e = true) -> plus_ok nullable e = true ->
     (forall r p, uses e pos r p -> has ds r p) -> ninv st ->
     exists st', nod is_punct text call e pos st = Some (res, st') /\ ninv st') /\
  (forall e pos p ks err, star e pos p ks err ->
     forall n ks0 st, (L - pos < n)%nat -> (pos0 < pos <= L)%nat -> plus_ok nullable (EPlus e) = true ->
     (forall r p, uses (EPlus e) pos r p -> has ds r p) -> ninv st ->
     exists st', nloop call e n pos ks0 st = Some (Some (p, ks0 ++ ks), st') /\ ninv st').
Proof.
  intro Hc. apply sem_star_ind.
  - intros s pos rest E st Hp _ _ _ Hst. cbn [nod]. unfold has_lit. exists st. split; [|exact Hst].
    replace (prefix s (sdrop pos text)) with true; [reflexivity|]. symmetry. apply prefix_app. eauto.
  - intros s pos E st Hp _ _ _ Hst. cbn [nod]. unfold has_lit. exists st. split; [|exact Hst].
    apply prefix_false in E. rewrite E. reflexivity.
  - intros rs pos r w E Hi st Hp _ _ _ Hst. cbn [nod]. unfold next. rewrite E. apply mem_rune_In in Hi. rewrite Hi. eauto.
  - intros rs pos r w E Hi st Hp _ _ _ Hst. cbn [nod]. unfold next. rewrite E. apply mem_rune_false in Hi. rewrite Hi. eauto.
  - intros pos r w E Hr st Hp _ _ _ Hst. cbn [nod].
    assert (A : any_ok text pos = true) by (apply (proj2 (any_ok_spec text pos)); rewrite E; exact Hr). rewrite A. unfold next. rewrite E. cbn. eauto.
  - intros pos w E st Hp _ _ _ Hst. cbn [nod].
    assert (A : any_ok text pos = false) by (destruct (any_ok text pos) eqn:A; [apply (proj1 (any_ok_spec text pos)) in A; rewrite E in A; contradiction A; reflexivity|reflexivity]).
    rewrite A. eauto.
  - intros pos r w E Hr P st Hp _ _ _ Hst. cbn [nod].
    assert (A : any_ok text pos = true) by (apply (proj2 (any_ok_spec text pos)); rewrite E; exact Hr). rewrite A. unfold next. rewrite E, P. eauto.
  - intros pos w E st Hp _ _ _ Hst. cbn [nod].
    assert (A : any_ok text pos = false) by (destruct (any_ok text pos) eqn:A; [apply (proj1 (any_ok_spec text pos)) in A; rewrite E in A; contradiction A; reflexivity|reflexivity]).
    rewrite A. eauto.
  - intros pos r w E Hr P st Hp _ _ _ Hst. cbn [nod].
    assert (A : any_ok text pos = true) by (apply (proj2 (any_ok_spec text pos)); rewrite E; exact Hr). rewrite A. unfold next. rewrite E, P. eauto.
  - intros r pos p kids err Hs _ st Hp Hl _ Hu Hst. cbn [nod]. cbn [left_ok] in Hl.
    destruct (Hc r pos st _ _ Hp (fun Q => proj1 (Nat.ltb_lt _ _) (Hl Q)) (Hu _ _ (UCall _ _)) Hst (SCall _ _ _ _ _ _ _ _ Hs)) as (st' & -> & H').
    cbn. eauto.
  - intros r pos err Hs _ st Hp Hl _ Hu Hst. cbn [nod]. cbn [left_ok] in Hl.
    destruct (Hc r pos st _ _ Hp (fun Q => proj1 (Nat.ltb_lt _ _) (Hl Q)) (Hu _ _ (UCall _ _)) Hst (SCallF _ _ _ _ _ _ Hs)) as (st' & -> & H').
    cbn. eauto.
  - intros a b pos p1 k1 e1 p2 k2 e2 S1 IH1 S2 IH2 st Hp Hl Hpl Hu Hst. cbn [nod]. cbn [left_ok plus_ok] in Hl, Hpl.
    apply andb_true_iff in Hpl. destruct Hpl as [Hpa Hpb].
    destruct (IH1 st Hp) as (st1 & -> & Hst1); [intro Q; apply Hl, andb_true_iff in Q; tauto|exact Hpa|intros; apply Hu, USeq1; assumption|exact Hst|].
    destruct (sem_some _ _ _ _ _ _ wf _ _ _ _ _ S1 ltac:(lia)) as [B1 N1].
    destruct (IH2 st1) as (st2 & -> & Hst2); [lia| |exact Hpb|intros; eapply Hu, USeq2; eassumption|exact Hst1|eauto].
    intro Q. assert (Q1 : pos = pos0) by lia. apply Hl, andb_true_iff in Q1. destruct Q1 as [_ Q1].
    destruct (nul nullable a) eqn:En; [exact Q1|]. specialize (N1 eq_refl). lia.
  - intros a b pos e1 S1 IH1 st Hp Hl Hpl Hu Hst. cbn [nod]. cbn [left_ok plus_ok] in Hl, Hpl.
    apply andb_true_iff in Hpl. destruct Hpl as [Hpa Hpb].
    destruct (IH1 st Hp) as (st1 & -> & Hst1); [intro Q; apply Hl, andb_true_iff in Q; tauto|exact Hpa|intros; apply Hu, USeq1; assumption|exact Hst|].
    eauto.
  - intros a b pos p1 k1 e1 e2 S1 IH1 S2 IH2 st Hp Hl Hpl Hu Hst. cbn [nod]. cbn [left_ok plus_ok] in Hl, Hpl.
    apply andb_true_iff in Hpl. destruct Hpl as [Hpa Hpb].
    destruct (IH1 st Hp) as (st1 & -> & Hst1); [intro Q; apply Hl, andb_true_iff in Q; tauto|exact Hpa|intros; apply Hu, USeq1; assumption|exact Hst|].
    destruct (sem_some _ _ _ _ _ _ wf _ _ _ _ _ S1 ltac:(lia)) as [B1 N1].
    destruct (IH2 st1) as (st2 & -> & Hst2); [lia| |exact Hpb|intros; eapply Hu, USeq2; eassumption|exact Hst1|eauto].
    intro Q. assert (Q1 : pos = pos0) by lia. apply Hl, andb_true_iff in Q1. destruct Q1 as [_ Q1].
    destruct (nul nullable a) eqn:En; [exact Q1|]. specialize (N1 eq_refl). lia.
  - intros a b pos p k0 err S1 IH1 st Hp Hl Hpl Hu Hst. cbn [nod]. cbn [left_ok plus_ok] in Hl, Hpl.
    apply andb_true_iff in Hpl. destruct Hpl as [Hpa Hpb].
    destruct (IH1 st Hp) as (st1 & -> & Hst1); [intro Q; apply Hl, andb_true_iff in Q; tauto|exact Hpa|intros; apply Hu, UChoice1; assumption|exact Hst|].
    eauto.
  - intros a b pos res e1 e2 S1 IH1 S2 IH2 st Hp Hl Hpl Hu Hst. cbn [nod]. cbn [left_ok plus_ok] in Hl, Hpl.
    apply andb_true_iff in Hpl. destruct Hpl as [Hpa Hpb].
    destruct (IH1 st Hp) as (st1 & -> & Hst1); [intro Q; apply Hl, andb_true_iff in Q; tauto|exact Hpa|intros; apply Hu, UChoice1; assumption|exact Hst|].
    destruct (IH2 st1 Hp) as (st2 & -> & Hst2); [intro Q; apply Hl, andb_true_iff in Q; tauto|exact Hpb|intros; eapply Hu, UChoice2; eassumption|exact Hst1|eauto].
  - intros e pos p1 k1 e1 p2 k2 e2 S1 IH1 S2 IH2 st Hp Hl Hpl Hu Hst. cbn [nod]. cbn [left_ok] in Hl. assert (Hpl' := Hpl). cbn [plus_ok] in Hpl'.
    apply andb_true_iff in Hpl'. destruct Hpl' as [Hn Hpe]. apply negb_true_iff in Hn.
    destruct (IH1 st Hp Hl Hpe) as (st1 & -> & Hst1); [intros; apply Hu, UPlus1; assumption|exact Hst|].
    destruct (sem_some _ _ _ _ _ _ wf _ _ _ _ _ S1 ltac:(lia)) as [B1 N1]. specialize (N1 Hn).
    destruct (IH2 (S L) k1 st1) as (st2 & H2 & Hst2); [lia|lia|exact Hpl|intros; eapply Hu, UPlus2; eassumption|exact Hst1|].
    exists st2. split; [exact H2|exact Hst2].
  - intros e pos err S1 IH1 st Hp Hl Hpl Hu Hst. cbn [nod]. cbn [left_ok plus_ok] in Hl, Hpl.
    apply andb_true_iff in Hpl. destruct Hpl as [Hn Hpe].
    destruct (IH1 st Hp Hl Hpe) as (st1 & -> & Hst1); [intros; apply Hu, UPlus1; assumption|exact Hst|eauto].
  - intros e pos p k0 err S1 IH1 st Hp Hl Hpl Hu Hst. cbn [nod].
    destruct (IH1 st Hp Hl Hpl) as (st1 & -> & Hst1); [intros; apply Hu, UOpt; assumption|exact Hst|eauto].
  - intros e pos err S1 IH1 st Hp Hl Hpl Hu Hst. cbn [nod].
    destruct (IH1 st Hp Hl Hpl) as (st1 & -> & Hst1); [intros; apply Hu, UOpt; assumption|exact Hst|eauto].
  - intros e pos p k0 err S1 IH1 st Hp Hl Hpl Hu Hst. cbn [nod].
    destruct (IH1 st Hp Hl Hpl) as (st1 & -> & Hst1); [intros; apply Hu, UAnd; assumption|exact Hst|eauto].
  - intros e pos err S1 IH1 st Hp Hl Hpl Hu Hst. cbn [nod].
    destruct (IH1 st Hp Hl Hpl) as (st1 & -> & Hst1); [intros; apply Hu, UAnd; assumption|exact Hst|eauto].
  - intros e pos err S1 IH1 st Hp Hl Hpl Hu Hst. cbn [nod].
    destruct (IH1 st Hp Hl Hpl) as (st1 & -> & Hst1); [intros; apply Hu, UNot; assumption|exact Hst|eauto].
  - intros e pos p k0 err S1 IH1 st Hp Hl Hpl Hu Hst. cbn [nod].
    destruct (IH1 st Hp Hl Hpl) as (st1 & -> & Hst1); [intros; apply Hu, UNot; assumption|exact Hst|eauto].
  - intros e pos p k0 err S1 IH1 st Hp Hl Hpl Hu Hst. cbn [nod].
    destruct (IH1 st Hp Hl Hpl) as (st1 & -> & Hst1); [intros; apply Hu, USub; assumption|exact Hst|eauto].
  - intros e pos err S1 IH1 st Hp Hl Hpl Hu Hst. cbn [nod].
    destruct (IH1 st Hp Hl Hpl) as (st1 & -> & Hst1); [intros; apply Hu, USub; assumption|exact Hst|eauto].
  - intros l e pos res err S1 IH1 st Hp Hl Hpl Hu Hst. cbn [nod]. apply IH1; try assumption. intros; apply Hu, ULabel; assumption.
  - intros a args e pos res err S1 IH1 st Hp Hl Hpl Hu Hst. cbn [nod]. apply IH1; try assumption. intros; apply Hu, UAction; assumption.
  - intros e pos err S1 IH1 n ks0 st Hn Hp Hpl Hu Hst. destruct n as [|n]; [lia|].
    assert (Hpl' := Hpl). cbn [plus_ok] in Hpl'. apply andb_true_iff in Hpl'. destruct Hpl' as [_ Hpe].
    destruct (IH1 st ltac:(lia)) as (st1 & -> & Hst1); [intro; lia|exact Hpe|intros; apply Hu, UPlus1; assumption|exact Hst|].
    exists st1. rewrite app_nil_r. split; [reflexivity|exact Hst1].
  - intros e pos p1 k1 e1 p2 k2 e2 S1 IH1 S2 IH2 n ks0 st Hn Hp Hpl Hu Hst. destruct n as [|n]; [lia|].
    assert (Hpl' := Hpl). cbn [plus_ok] in Hpl'. apply andb_true_iff in Hpl'. destruct Hpl' as [Hnn Hpe]. apply negb_true_iff in Hnn.
    destruct (IH1 st ltac:(lia)) as (st1 & -> & Hst1); [intro; lia|exact Hpe|intros; apply Hu, UPlus1; assumption|exact Hst|].
    destruct (sem_some _ _ _ _ _ _ wf _ _ _ _ _ S1 ltac:(lia)) as [B1 N1]. specialize (N1 Hnn).
    destruct (IH2 n (ks0 ++ k1) st1) as (st2 & H2 & Hst2); [lia|lia|exact Hpl|intros; eapply Hu, UPlus2; eassumption|exact Hst1|].
    exists st2. rewrite app_assoc. split; [exact H2|exact Hst2].
Qed.

Lemma node_ok fuel : forall r pos st res err,
  (depth text rank maxrank r pos <= fuel)%nat -> (pos <= L)%nat -> has ds r pos -> ninv st ->
  sem (ECall r) pos res err ->
  exists st', node_of G is_punct text ds fuel r pos st = Some (kid_of res, st') /\ ninv st'.
Proof.
  induction fuel as [|fuel IH]; intros r pos st res err Hd Hp Hh Hst Hs; [unfold depth in Hd; lia|].
  cbn [node_of]. rewrite (has_delta _ _ _ _ Hh Hs Hp).
  destruct res as [[p ks]|].
  - cbn [enc1]. destruct (sem_some _ _ _ _ _ _ wf _ _ _ _ _ Hs Hp) as [B1 _].
    rewrite (proj2 (Z.ltb_ge _ 0)) by lia.
    destruct (m2_get st r pos) as [n|] eqn:En.
    + destruct (Hst _ _ _ En) as (_ & p' & err' & Hs'). pose proof (sem_same _ _ _ _ _ _ Hs Hs') as Eq.
      injection Eq as -> ->. exists st. split; [|exact Hst]. cbn [kid_of]. do 4 f_equal. lia.
    + assert (Hbody : exists kids err', ks = [PNode (r_name (G r)) (stake (p - pos) (sdrop pos text)) kids] /\
        sem (r_body (G r)) pos (Some (p, kids)) err') by (inversion Hs; subst; eauto).
      destruct Hbody as (kids & err' & -> & H0).
      destruct (proj1 (nod_ok_all (node_of G is_punct text ds fuel) pos (rank r) ltac:(
          intros r' pos' st' res2 err2 Hp' Hr' Hh' Hst' Hs2; apply (IH r' pos' st' res2 err2); try assumption; [|lia];
          pose proof (depth_step _ _ _ _ _ wf r r' pos pos' Hp' Hr'); lia)) _ _ _ _ H0 st ltac:(lia)) as (st1 & -> & Hst1).
      * intros _. eapply wf_left. exact wf.
      * eapply wf_plus. exact wf.
      * intros r' p' U. eapply Hclosed; eassumption.
      * exact Hst.
      * eexists. split; [reflexivity|]. intros r' pos' n' Hn'.
        destruct (key_dec r r' pos pos') as [E|N].
        -- injection E as -> ->. rewrite m2_gss in Hn'. injection Hn' as <-. split; [exact Hh|]. eauto.
        -- rewrite m2_gso in Hn' by exact N. apply Hst1. exact Hn'.
  - cbn [enc1]. cbn. eauto.
Qed.

End NodeFacts.
