(** The numbers of variables in the trees of first-order sentences. *)

From Coq Require Import String NArith List Bool Arith Lia.
From Verif Require Import Base PegSyntax Tone Ast Logic LogicWords LogicSpec ScopeSpec Interp Simplify LogicString OrderFacts SeqFacts TermFacts LogicFuel LogicApi
  ScopeFacts ScopeSimp.
Import ListNotations.
Open Scope string_scope.
Open Scope list_scope.
Open Scope nat_scope.

(** ** Descendants *)

Inductive desc (h : heap) : ref -> ref -> Prop :=
  | DHere r : desc h r r
  | DDown r k x : child h r k -> desc h k x -> desc h r x.
Inductive path (h : heap) : ref -> ref -> Prop :=
  | PHere r : path h r r
  | PStep r p x : path h r p -> child h p x -> path h r x.
Lemma path_down h r k x : child h r k -> path h k x -> path h r x.
Proof. intros C P. induction P as [k|k p x P IH C']; [econstructor; [constructor|exact C]|]. econstructor; [apply IH, C|exact C']. Qed.
Lemma desc_path h r x : desc h r x -> path h r x.
Proof. induction 1; [constructor|]. eapply path_down; eassumption. Qed.
Lemma desc_step h r p x : desc h r p -> child h p x -> desc h r x.
Proof. induction 1 as [r|r k p C D IH]; intros K; [econstructor 2; [exact K|constructor]|]. econstructor 2; [exact C|apply IH, K]. Qed.
Lemma path_desc h r x : path h r x -> desc h r x.
Proof. induction 1; [constructor|]. eapply desc_step; eassumption. Qed.

Lemma flat_ok {A B} (f : A -> res (list B)) : forall l v, flat_res f l = Ok v ->
  forall x, In x l -> exists w pre post, f x = Ok w /\ v = pre ++ w ++ post.
Proof.
  induction l as [|y l IH]; intros v E x I; [destruct I|]. cbn [flat_res] in E.
  destruct (f y) as [a| |] eqn:Y; cbn [bind] in E; try discriminate. destruct (flat_res f l) as [b| |] eqn:L; cbn [bind] in E; try discriminate.
  injection E as <-. destruct I as [->|I]; [exists a, [], b; auto|].
  destruct (IH _ eq_refl _ I) as (w & pre & post & W & ->). exists w, (a ++ pre), post. rewrite <- app_assoc. auto.
Qed.
Lemma flat_in {A B} (f : A -> res (list B)) : forall l v, flat_res f l = Ok v ->
  forall z, In z v -> exists x w, In x l /\ f x = Ok w /\ In z w.
Proof.
  induction l as [|y l IH]; intros v E z I; cbn [flat_res] in E; [injection E as <-; destruct I|].
  destruct (f y) as [a| |] eqn:Y; cbn [bind] in E; try discriminate. destruct (flat_res f l) as [b| |] eqn:L; cbn [bind] in E; try discriminate.
  injection E as <-. apply in_app_iff in I. destruct I as [I|I]; [exists y, a; cbn; auto|].
  destruct (IH _ eq_refl _ I) as (x & w & J & W & K). exists x, w. cbn. auto.
Qed.

Lemma visited_inv h f r l : visited h f r = Ok l ->
  exists f' c l', f = S f' /\ nth_error h r = Some c /\ flat_res (visited h f') (below c) = Ok l' /\ l = r :: l'.
Proof.
  intros V. destruct f as [|f]; [discriminate|]. cbn [visited] in V. destruct (nth_error h r) as [c|]; [|discriminate].
  destruct (flat_res (visited h f) (below c)) as [l'| |] eqn:F; cbn [bind] in V; try discriminate. injection V as <-. exists f, c, l'. auto.
Qed.
Lemma visited_child h f r l k : visited h f r = Ok l -> child h r k -> exists f' w, f = S f' /\ visited h f' k = Ok w.
Proof.
  intros V (c & E & I). destruct (visited_inv _ _ _ _ V) as (f' & c' & l' & -> & E' & F & _). rewrite E in E'. injection E' as <-.
  destruct (flat_ok _ _ _ F _ I) as (w & _ & _ & W & _). exists f', w. auto.
Qed.
Lemma visited_at h r x : desc h r x -> forall f l, visited h f r = Ok l -> exists f' l', f' <= f /\ visited h f' x = Ok l'.
Proof.
  induction 1 as [r|r k x C D IH]; intros f l V; [exists f, l; auto|].
  destruct (visited_child _ _ _ _ _ V C) as (f' & w & -> & W). destruct (IH _ _ W) as (f2 & l2 & L & V2). exists f2, l2. split; [lia|exact V2].
Qed.
Lemma visited_desc h : forall f r l x, visited h f r = Ok l -> In x l -> desc h r x.
Proof.
  induction f as [|f IH]; intros r l x V I; [discriminate|]. destruct (visited_inv _ _ _ _ V) as (f' & c & l' & Ef & E & F & ->). injection Ef as <-.
  destruct I as [<-|I]; [constructor|]. destruct (flat_in _ _ _ F _ I) as (k & w & K & W & J).
  econstructor 2; [exists c; split; [exact E|exact K]|eapply IH; eassumption].
Qed.

(** A tree that Visit walks through has no cycles. *)
Lemma acyclic h : forall f r l k, visited h f r = Ok l -> child h r k -> ~ desc h k r.
Proof.
  induction f as [f IH] using (well_founded_induction lt_wf). intros r l k V C D.
  destruct (visited_child _ _ _ _ _ V C) as (f' & w & -> & W). destruct (visited_at _ _ _ D _ _ W) as (f2 & l2 & L & V2).
  exact (IH f2 ltac:(lia) _ _ _ V2 C D).
Qed.

Lemma parent_stmt h p x : wf h -> child h p x -> stmt h x -> exists c, nth_error h p = Some c /\ holds_stmt c = true /\ In x (below c).
Proof.
  intros W (c & E & I) (cx & Ex & Sx). exists c. split; [exact E|]. split; [|exact I].
  destruct (w_kind _ W _ _ _ E I) as (c' & E' & K). congruence.
Qed.
Lemma parent_is_stmt h p x : wf h -> child h p x -> stmt h x -> stmt h p.
Proof. intros W C S. destruct (parent_stmt _ _ _ W C S) as (c & E & H & _). exists c. split; [exact E|]. destruct c; try discriminate; reflexivity. Qed.

(** The statements above a statement are in a line. *)
Lemma line h : wf h -> forall a x, path h a x -> stmt h x -> forall b, path h b x -> path h a b \/ path h b a.
Proof.
  intros W a x P. induction P as [a|a p x P IH C]; intros S b Q; [right; exact Q|].
  inversion Q as [|? p' ? Q' C']; subst; [left; econstructor; eassumption|].
  assert (p' = p) as -> by (eapply (w_own _ W); eassumption). apply IH; [eapply parent_is_stmt; eassumption|exact Q'].
Qed.

(** Children of one node have no statement in common. *)
Lemma apart h f r l k k' x : wf h -> visited h f r = Ok l -> child h r k -> child h r k' -> k <> k' -> stmt h x ->
  desc h k x -> desc h k' x -> False.
Proof.
  intros W V C C' N S D D'.
  assert (G : forall a b, child h r a -> child h r b -> a <> b -> desc h b x -> path h a b -> False).
  { clear k k' C C' N D D'. intros a b Ca Cb N Db P. inversion P as [|? p ? P' C']; subst; [contradiction|].
    assert (Sb : stmt h b).
    { clear - W S Db. induction Db as [b|b k x C D IH]; [exact S|]. apply IH in S. eapply parent_is_stmt; eassumption. }
    assert (p = r) as -> by (eapply (w_own _ W); eassumption). apply path_desc in P'. exact (acyclic _ _ _ _ _ V Ca P'). }
  destruct (line h W _ _ (desc_path _ _ _ D) S _ (desc_path _ _ _ D')) as [P|P]; [exact (G k k' C C' N D' P)|exact (G k' k C' C (not_eq_sym N) D P)].
Qed.

Definition stmtb (h : heap) (x : ref) : bool := match nth_error h x with Some c => is_stmt c | None => false end.
Lemma stmtb_stmt h x : stmtb h x = true <-> stmt h x.
Proof.
  unfold stmtb, stmt. split.
  - destruct (nth_error h x) as [c|]; [|discriminate]. intros E. eauto.
  - intros (c & -> & E). exact E.
Qed.

Lemma NoDup_app_intro {A} (a b : list A) : NoDup a -> NoDup b -> (forall x, In x a -> ~ In x b) -> NoDup (a ++ b).
Proof.
  induction 1 as [|x a N D IH]; intros Db X; cbn; [exact Db|]. constructor.
  - rewrite in_app_iff. intros [I|I]; [exact (N I)|exact (X x (or_introl eq_refl) I)].
  - apply IH; [exact Db|]. intros y I. apply X. right. exact I.
Qed.

Theorem statements_once h : wf h -> forall f r l, visited h f r = Ok l -> NoDup (filter (stmtb h) l).
Proof.
  intros W. induction f as [|f IH]; intros r l V; [discriminate|]. assert (V0 := V).
  destruct (visited_inv _ _ _ _ V) as (f' & c & l' & Ef & E & F & ->). injection Ef as <-.
  assert (T : NoDup (filter (stmtb h) l')).
  { destruct (holds_stmt c) eqn:Hc.
    - assert (Tw := w_two _ W _ _ E Hc). assert (Ch : forall k, In k (below c) -> child h r k) by (intros k I; exists c; auto).
      clear V E. revert V0. generalize (r :: l') as lr. intros lr V0. revert l' F Tw Ch. generalize (below c). induction l as [|k ks IHk]; intros l' F Tw Ch; cbn [flat_res] in F; [injection F as <-; constructor|].
      destruct (visited h f k) as [a| |] eqn:K; cbn [bind] in F; try discriminate.
      destruct (flat_res (visited h f) ks) as [b| |] eqn:L; cbn [bind] in F; try discriminate. injection F as <-. rewrite filter_app.
      inversion Tw as [|? ? Nk Tk]; subst. apply NoDup_app_intro; [eapply IH, K| |].
      + apply (IHk b eq_refl); [exact Tk|intros z I; apply Ch; right; exact I].
      + intros x I J. apply filter_In in I. apply filter_In in J. destruct I as [I Sx], J as [J _]. apply stmtb_stmt in Sx.
        destruct (flat_in _ _ _ L _ J) as (k' & w & I' & W' & J').
        eapply (apart h _ r _ k k' x W V0); [apply Ch; left; reflexivity|apply Ch; right; exact I'|intros ->; contradiction|exact Sx| |];
          eapply visited_desc; eassumption.
    - replace (filter (stmtb h) l') with (@nil ref); [constructor|]. symmetry.
      assert (N : forall x, In x l' -> stmtb h x = false).
      { intros x I. destruct (stmtb h x) eqn:Sx; [|reflexivity]. exfalso. apply stmtb_stmt in Sx. destruct (flat_in _ _ _ F _ I) as (k & w & K & Wk & J).
        assert (D := visited_desc _ _ _ _ _ Wk J). assert (Sk : stmt h k).
        { clear - W Sx D. induction D as [b|b k x C D IH]; [exact Sx|]. apply IH in Sx. eapply parent_is_stmt; eassumption. }
        destruct (parent_stmt h r k W ltac:(exists c; auto) Sk) as (c' & E' & H' & _). congruence. }
      clear - N. induction l' as [|x l' IHl]; [reflexivity|]. cbn. rewrite (N x (or_introl eq_refl)). apply IHl. intros y I. apply N. right. exact I. }
  cbn [filter]. destruct (stmtb h r); [|exact T]. constructor; [|exact T]. intros I. apply filter_In in I. destruct I as [I _].
  destruct (flat_in _ _ _ F _ I) as (k & w & K & Wk & J). eapply (acyclic h _ r _ k V0); [exists c; auto|eapply visited_desc; eassumption].
Qed.

(** ** Numbers *)

Lemma unbound_bare h h' x : bare h = bare h' -> unbound h x = unbound h' x.
Proof.
  intros E. assert (X : nth_error (bare h) x = nth_error (bare h') x) by congruence. unfold bare in X. rewrite !nth_error_map in X.
  unfold unbound. destruct (nth_error h x) as [[]|], (nth_error h' x) as [[]|]; cbn in X; congruence || (injection X; intros; subst; reflexivity).
Qed.

Lemma introducers_once h l : NoDup (filter (stmtb h) l) -> NoDup (filter (unbound h) l) -> NoDup (filter (introduces h) l).
Proof.
  induction l as [|x l IH]; cbn; intros A B; [constructor|].
  assert (X : introduces h x = true -> (stmtb h x = true /\ unbound h x = false) \/ (stmtb h x = false /\ unbound h x = true)).
  { unfold introduces, stmtb, unbound. destruct (nth_error h x) as [[]|]; try destruct def; try discriminate; auto. }
  destruct (introduces h x) eqn:I.
  - destruct (X eq_refl) as [[S U]|[S U]]; rewrite S, U in *.
    + inversion A as [|? ? N D]; subst. constructor; [|apply IH; assumption]. rewrite filter_In in *. tauto.
    + inversion B as [|? ? N D]; subst. constructor; [|apply IH; assumption]. rewrite filter_In in *. tauto.
  - apply IH; [destruct (stmtb h x)|destruct (unbound h x)]; try assumption; [inversion A|inversion B]; assumption.
Qed.

Lemma visited_occurs h : forall f r l x, visited h f r = Ok l -> In x l -> exists sc, occurs h r sc x.
Proof.
  intros f r l x V I. apply (visited_desc _ _ _ _ _ V) in I. clear V. induction I as [r|r k x (c & E & K) D (sc & O)]; [exists []; constructor|].
  eexists. eapply OBelow; eassumption.
Qed.
Lemma before_app l d x pre post : before l d x -> before (pre ++ l ++ post) d x.
Proof. intros (a & b & c & ->). exists (pre ++ a), b, (c ++ post). now rewrite <- !app_assoc; cbn; rewrite <- !app_assoc. Qed.
Lemma occurs_before h r sc x : occurs h r sc x -> forall f l, visited h f r = Ok l -> In x l /\
  forall d, In d sc -> before l d x /\ introduces h d = true.
Proof.
  induction 1 as [r|r c k sc x E K O IH]; intros f l V; destruct (visited_inv _ _ _ _ V) as (f' & c' & l' & -> & E' & F & ->); [cbn; tauto|].
  rewrite E in E'. injection E' as <-. destruct (flat_ok _ _ _ F _ K) as (w & pre & post & Wk & ->). destruct (IH _ _ Wk) as [I B].
  assert (I' : In x (pre ++ w ++ post)) by (rewrite !in_app_iff; auto). split; [right; exact I'|].
  intros d D. assert (G : In d sc -> before (r :: pre ++ w ++ post) d x /\ introduces h d = true).
  { intros J. destruct (B _ J) as [B1 B2]. split; [|exact B2]. apply (before_app _ _ _ (r :: pre) post) in B1. exact B1. }
  destruct c; try exact (G D). destruct D as [<-|D]; [|exact (G D)]. split; [|unfold introduces; now rewrite E].
  apply in_split in I'. destruct I' as (a & b & ->). exists [], a, b. reflexivity.
Qed.

Lemma unbound_refers h x : introduces h x = false -> forall n d f, nth_error h x = Some (CVariable n d f) -> exists b, d = Some b.
Proof. unfold introduces. intros I n d f E. rewrite E in I. destruct d; [eauto|discriminate]. Qed.

Theorem first_order_numbers U d t l : outcome U d (Ok (Some t)) ->
  (forall n, In n d -> sentence_item n -> first_order U (o_letters diacritic) n = true) ->
  nodes t l -> NoDup (filter (unbound (snd t)) l) ->
  NoDup (filter (introduces (snd t)) l) /\
  (forall k x, nth_error (filter (introduces (snd t)) l) k = Some x -> number (snd t) x = Some k) /\
  (forall x b, In x l -> refers (snd t) x b -> In b (filter (introduces (snd t)) l) /\ number (snd t) x = number (snd t) b).
Proof.
  intros O Fo N Un. assert (Sc := first_order_scoped _ _ _ O Fo). destruct t as [r h]. cbn [snd] in *.
  destruct (first_order_closed _ _ _ _ O Fo) as (h0 & C & B). assert (N' := N). destruct N' as [f V]. cbn [fst snd] in V.
  assert (D : NoDup (filter (introduces h) l)).
  { rewrite (filter_bare _ _ _ B). apply introducers_once.
    - eapply statements_once; [exact (c_wf _ _ C)|]. rewrite <- (visited_bare _ _ B). exact V.
    - rewrite (filter_ext (unbound h0) (unbound h)); [exact Un|]. intros x. symmetry. apply unbound_bare, B. }
  destruct (outcome_numbers _ _ _ _ O N D) as [Q1 Q2]. cbn [snd] in *. split; [exact D|]. split; [exact Q1|].
  intros x b I R. destruct (visited_occurs _ _ _ _ _ V I) as (sc & Oc). destruct (occurs_before _ _ _ _ Oc _ _ V) as [_ Bf].
  destruct (Bf b (Sc _ _ _ Oc R)) as [B1 B2]. split; [|apply Q2; assumption]. apply filter_In. split; [|exact B2].
  destruct B1 as (p & q & s & ->). rewrite in_app_iff. right. left. reflexivity.
Qed.

Theorem first_order_period U d t l s : outcome U d (Ok (Some t)) ->
  (forall n, In n d -> sentence_item n -> first_order U (o_letters diacritic) n = true) ->
  nodes t l -> NoDup (filter (unbound (snd t)) l) ->
  (forall b, In b l -> binding (snd t) b = true -> exists x, In x l /\ refers (snd t) x b) ->
  prints U (Some t) s -> exists body, s = (body ++ ".")%string.
Proof.
  intros O Fo N Un Used [pf P]. destruct (first_order_numbers _ _ _ _ O Fo N Un) as (D & Q1 & Q2). destruct t as [r h]. cbn [snd] in *.
  destruct N as [f V]. cbn [fst snd] in V. specialize (P (pf + f) ltac:(lia)). unfold string_ in P.
  assert (V' : visited h (pf + f) r = Ok l) by (destruct (le_visited h f (pf + f) r ltac:(lia)) as [X|X]; congruence).
  refine (print_period _ _ _ _ _ _ _ _ V' _ P). clear P V V'.
  assert (Var : forall x n, In x l -> introduces h x = true -> number h x = Some n -> In n (variable_numbers h l)).
  { intros x n I J M. unfold variable_numbers. apply in_flat_map. unfold introduces in J. unfold number in M. destruct (nth_error h x) as [[]|] eqn:E; try discriminate.
    - injection M as ->. destruct (Used x I) as (y & Iy & R); [unfold binding; now rewrite E|]. exists y. split; [exact Iy|].
      destruct (Q2 _ _ Iy R) as [_ M]. unfold number in M. destruct R as (m & fo & Ey). rewrite E, Ey in *. injection M as ->. left. reflexivity.
    - injection M as ->. exists x. rewrite E. split; [exact I|left; reflexivity]. }
  assert (Bd : forall v, In v (variable_numbers h l) -> v < length (filter (introduces h) l)).
  { intros v I. unfold variable_numbers in I. apply in_flat_map in I. destruct I as (x & I & J). destruct (nth_error h x) as [[| | |n df fo| | | | | | ]|] eqn:E; try destruct J as [].
    - subst v. destruct df as [b|].
      + destruct (Q2 x b I ltac:(exists n, fo; exact E)) as [Ib M]. apply In_nth_error in Ib. destruct Ib as (k & K). rewrite (Q1 _ _ K) in M. unfold number in M. rewrite E in M.
        injection M as ->. apply nth_error_Some. congruence.
      + assert (Ix : In x (filter (introduces h) l)) by (apply filter_In; split; [exact I|unfold introduces; now rewrite E]).
        apply In_nth_error in Ix. destruct Ix as (k & K). assert (M := Q1 _ _ K). unfold number in M. rewrite E in M. injection M as ->.
        eapply nth_lt, K.
    - contradiction. }
  intros v w I L. apply Bd in I. destruct (nth_error (filter (introduces h) l) w) as [x|] eqn:K; [|apply nth_error_None in K; lia].
  assert (M := Q1 _ _ K). apply nth_error_In, filter_In in K. destruct K as [K1 K2]. eapply Var; eassumption.
Qed.
