(** Scopes of the trees built from first-order sentences, before they are simplified. *)

From Coq Require Import String NArith List Bool Arith Lia.
From Verif Require Import Base PegSyntax Ast AstSorts Logic LogicWords LogicSpec ScopeSpec Interp OrderFacts SeqFacts TermFacts.
From Verif Require SafeBase.
Import ListNotations.
Open Scope string_scope.
Open Scope list_scope.
Open Scope nat_scope.

(** ** Heaps *)

Definition is_stmt (c : cell) : bool :=
  match c with CBinding _ _ _ _ _ | CConnection _ _ _ | CPredication _ _ => true | _ => false end.
Definition holds_stmt (c : cell) : bool :=
  match c with CBinding _ _ _ _ _ | CConnection _ _ _ => true | _ => false end.
Definition fo_cell (c : cell) : bool :=
  match c with CAbstraction _ | CQuote _ _ | CPlurality _ | CSwap _ _ => false | _ => true end.
Definition binds (c : cell) : bool := match c with CBinding _ _ _ _ _ => true | _ => false end.

Definition child (h : heap) (i x : ref) : Prop := exists c, nth_error h i = Some c /\ In x (below c).
Definition stmt (h : heap) (x : ref) : Prop := exists c, nth_error h x = Some c /\ is_stmt c = true.
Definition orphan (h : heap) (x : ref) : Prop := forall i, ~ child h i x.

(** Children are below their parents. *)
Definition ranked (rk : ref -> nat) (h : heap) : Prop := forall i x, child h i x -> rk x < rk i.

(** Children exist and are statements exactly where statements belong; a statement has one
    parent; there are no cycles. *)
Record wf (h : heap) : Prop := Wf {
  w_kind : forall i c x, nth_error h i = Some c -> In x (below c) ->
    exists c', nth_error h x = Some c' /\ is_stmt c' = holds_stmt c;
  w_own : forall i j x, child h i x -> child h j x -> stmt h x -> i = j;
  w_fo : forall i c, nth_error h i = Some c -> fo_cell c = true;
  w_two : forall i c, nth_error h i = Some c -> holds_stmt c = true -> NoDup (below c);
  w_rank : exists rk, ranked rk h }.

(** [d] is the binding of a variable in [r] that is not inside it. *)
Inductive free (h : heap) : ref -> ref -> Prop :=
  | FVar r n d f : nth_error h r = Some (CVariable n (Some d) f) -> free h r d
  | FSub r c x d : nth_error h r = Some c -> In x (below c) -> free h x d -> (binds c = true -> d <> r) -> free h r d.

(** The heap has grown, and new cells refer to no old statement. *)
Record fresh (h h' : heap) : Prop := Fresh {
  f_len : length h <= length h';
  f_old : forall i, i < length h -> nth_error h' i = nth_error h i;
  f_new : forall i x, length h <= i -> child h' i x -> stmt h' x -> length h <= x }.

Lemma nth_lt {A} (l : list A) i x : nth_error l i = Some x -> i < length l.
Proof. intros E. apply nth_error_Some. congruence. Qed.
Lemma stmt_lt h x : stmt h x -> x < length h.
Proof. intros (c & E & _). eapply nth_lt, E. Qed.
Lemma child_lt h i x : wf h -> child h i x -> x < length h.
Proof. intros W (c & E & I). destruct (w_kind _ W _ _ _ E I) as (c' & E' & _). eapply nth_lt, E'. Qed.

Definition above (rk : ref -> nat) (l : list ref) : nat := S (list_sum (map rk l)).
Lemma above_lt rk l x : In x l -> rk x < above rk l.
Proof. unfold above. induction l as [|y l IH]; intros I; [contradiction|]. change (list_sum (map rk (y :: l))) with (rk y + list_sum (map rk l)). destruct I as [->|I]; [lia|apply IH in I; lia]. Qed.
Definition give (rk : ref -> nat) (i n : nat) : ref -> nat := fun x => if x =? i then n else rk x.
Lemma give_same rk i n : give rk i n i = n.
Proof. unfold give. rewrite Nat.eqb_refl. reflexivity. Qed.
Lemma give_other rk i n x : x <> i -> give rk i n x = rk x.
Proof. unfold give. intros N. destruct (Nat.eqb_spec x i); [contradiction|reflexivity]. Qed.

Lemma fresh_refl h : wf h -> fresh h h.
Proof. intros W. split; auto. intros i x L (c & E & _) _. apply nth_lt in E. lia. Qed.
Lemma fresh_child h h' i x : fresh h h' -> i < length h -> (child h' i x <-> child h i x).
Proof. intros F L. unfold child. rewrite (f_old _ _ F _ L). tauto. Qed.
Lemma fresh_stmt h h' x : fresh h h' -> stmt h x -> stmt h' x.
Proof. intros F (c & E & S). exists c. rewrite (f_old _ _ F); [auto|eapply nth_lt, E]. Qed.
Lemma fresh_trans a b c : wf b -> fresh a b -> fresh b c -> fresh a c.
Proof.
  intros W F G. split.
  - pose proof (f_len _ _ F). pose proof (f_len _ _ G). lia.
  - intros i L. rewrite (f_old _ _ G) by (pose proof (f_len _ _ F); lia). apply (f_old _ _ F), L.
  - intros i x L C S. destruct (Nat.lt_ge_cases i (length b)) as [K|K].
    + rewrite (fresh_child _ _ _ _ G K) in C. pose proof (child_lt _ _ _ W C) as X. eapply (f_new _ _ F); [exact L|exact C|].
      destruct S as (d & E & S). exists d. rewrite (f_old _ _ G _ X) in E. auto.
    + pose proof (f_new _ _ G _ _ K C S). pose proof (f_len _ _ F). lia.
Qed.
Lemma fresh_orphan h h' x : fresh h h' -> stmt h x -> orphan h x -> orphan h' x.
Proof.
  intros F S O i C. destruct (Nat.lt_ge_cases i (length h)) as [K|K].
  - apply (O i). rewrite <- (fresh_child _ _ _ _ F K). exact C.
  - pose proof (f_new _ _ F _ _ K C (fresh_stmt _ _ _ F S)). apply stmt_lt in S. lia.
Qed.
Lemma fresh_free h h' r d : wf h -> fresh h h' -> r < length h -> (free h' r d <-> free h r d).
Proof.
  intros W F L. split; intros K.
  - induction K as [r n d f E|r c x d E I K IH N].
    + rewrite (f_old _ _ F _ L) in E. econstructor 1; exact E.
    + rewrite (f_old _ _ F _ L) in E. econstructor 2; [exact E|exact I| |exact N]. apply IH. eapply child_lt; [exact W|exists c; eauto].
  - induction K as [r n d f E|r c x d E I K IH N].
    + rewrite <- (f_old _ _ F _ L) in E. econstructor 1; exact E.
    + rewrite <- (f_old _ _ F _ L) in E. econstructor 2; [exact E|exact I| |exact N]. apply IH. eapply child_lt; [exact W|].
      rewrite (f_old _ _ F _ L) in E. exists c; eauto.
Qed.

(** Appending a cell. *)
Lemma nth_snoc {A} (l : list A) x : nth_error (l ++ [x]) (length l) = Some x.
Proof. rewrite nth_error_app2, Nat.sub_diag by lia. reflexivity. Qed.
Lemma nth_snoc_old {A} (l : list A) x i : i < length l -> nth_error (l ++ [x]) i = nth_error l i.
Proof. intros L. apply nth_error_app1, L. Qed.
Lemma nth_snoc_inv {A} (l : list A) x i c : nth_error (l ++ [x]) i = Some c -> (i < length l /\ nth_error l i = Some c) \/ (i = length l /\ c = x).
Proof.
  intros E. destruct (Nat.lt_trichotomy i (length l)) as [K|[K|K]].
  - rewrite nth_snoc_old in E by exact K. auto.
  - subst i. rewrite nth_snoc in E. injection E as <-. auto.
  - apply nth_lt in E. rewrite app_length in E. cbn in E. lia.
Qed.
Lemma child_snoc h c i x : child (h ++ [c]) i x -> child h i x \/ (i = length h /\ In x (below c)).
Proof. intros (d & E & I). apply nth_snoc_inv in E. destruct E as [[L E]|[-> ->]]; [left; exists d|right]; auto. Qed.
Lemma stmt_snoc h c x : x < length h -> stmt (h ++ [c]) x -> stmt h x.
Proof. intros L (d & E & S). rewrite nth_snoc_old in E by exact L. exists d. auto. Qed.

(** What a new cell may refer to. *)
Definition fits (h : heap) (c : cell) : Prop :=
  fo_cell c = true /\ (holds_stmt c = true -> NoDup (below c)) /\
  forall x, In x (below c) -> exists c', nth_error h x = Some c' /\ is_stmt c' = holds_stmt c /\ (is_stmt c' = true -> orphan h x).

Lemma wf_snoc h c : wf h -> fits h c -> wf (h ++ [c]).
Proof.
  intros W [Fo [Tw Fi]]. split.
  - intros i d x E I. apply nth_snoc_inv in E. destruct E as [[L E]|[-> ->]].
    + destruct (w_kind _ W _ _ _ E I) as (c' & E' & K). exists c'. rewrite nth_snoc_old; [auto|eapply nth_lt, E'].
    + destruct (Fi _ I) as (c' & E' & K & _). exists c'. rewrite nth_snoc_old; [auto|eapply nth_lt, E'].
  - intros i j x Ci Cj S. apply child_snoc in Ci, Cj.
    assert (O : forall k, child h k x -> In x (below c) -> False).
    { intros k Ck I. destruct (Fi _ I) as (c' & E' & K & Or). destruct S as (d & E & S).
      rewrite nth_snoc_old in E by (eapply nth_lt, E'). rewrite E' in E. injection E as ->. exact (Or S _ Ck). }
    destruct Ci as [Ci|[-> Ii]], Cj as [Cj|[-> Ij]]; try reflexivity; try (exfalso; eapply O; eassumption).
    eapply (w_own _ W); [exact Ci|exact Cj|]. eapply stmt_snoc; [|exact S]. eapply child_lt; eassumption.
  - intros i d E. apply nth_snoc_inv in E. destruct E as [[L E]|[-> ->]]; [eapply (w_fo _ W), E|exact Fo].
  - intros i d E Hd. apply nth_snoc_inv in E. destruct E as [[L E]|[-> ->]]; [eapply (w_two _ W); eassumption|exact (Tw Hd)].
  - destruct (w_rank _ W) as (rk & R). exists (give rk (length h) (above rk (below c))). intros i x C. apply child_snoc in C. destruct C as [C|[-> I]].
    + assert (Lx := child_lt _ _ _ W C). assert (Li : i < length h) by (destruct C as (d & E & _); eapply nth_lt, E). rewrite !give_other by lia. apply R, C.
    + destruct (Fi _ I) as (c' & E' & _). apply nth_lt in E'. rewrite give_same, give_other by lia. apply above_lt, I.
Qed.
Lemma fresh_snoc h0 h c : wf h -> fresh h0 h -> (forall x, In x (below c) -> stmt h x -> length h0 <= x) ->
  (forall x, In x (below c) -> x < length h) -> fresh h0 (h ++ [c]).
Proof.
  intros W F N B. split.
  - rewrite app_length. pose proof (f_len _ _ F). lia.
  - intros i L. rewrite nth_snoc_old by (pose proof (f_len _ _ F); lia). apply (f_old _ _ F), L.
  - intros i x L C S. apply child_snoc in C. destruct C as [C|[-> I]].
    + eapply (f_new _ _ F); [exact L|exact C|]. eapply stmt_snoc; [eapply child_lt; eassumption|exact S].
    + apply N; [exact I|]. eapply stmt_snoc; [apply B, I|exact S].
Qed.
Lemma orphan_snoc h c x : orphan h x -> ~ In x (below c) -> orphan (h ++ [c]) x.
Proof. intros O N i C. apply child_snoc in C. destruct C as [C|[_ I]]; [exact (O _ C)|exact (N I)]. Qed.
Lemma orphan_new h c : wf h -> (forall x, In x (below c) -> x < length h) -> orphan (h ++ [c]) (length h).
Proof.
  intros W B i C. apply child_snoc in C. destruct C as [C|[_ I]]; [|apply B in I; lia]. apply (child_lt _ _ _ W) in C. lia.
Qed.
Lemma free_snoc h c r d : wf h -> r < length h -> free (h ++ [c]) r d -> free h r d.
Proof.
  intros W L K. induction K as [r n d f E|r e x d E I K IH N].
  - rewrite nth_snoc_old in E by exact L. econstructor 1; exact E.
  - rewrite nth_snoc_old in E by exact L. econstructor 2; [exact E|exact I| |exact N]. apply IH. eapply child_lt; [exact W|exists e; eauto].
Qed.

(** Changing a cell. *)
Lemma nth_set {A} (l : list A) b c i : b < length l -> nth_error (set_nth b c l) i = if i =? b then Some c else nth_error l i.
Proof.
  intros L. destruct (Nat.eqb_spec i b) as [->|N]; [apply set_nth_same, L|apply set_nth_other; auto].
Qed.
Lemma child_set h b c i x : b < length h -> child (set_nth b c h) i x -> (i <> b /\ child h i x) \/ (i = b /\ In x (below c)).
Proof.
  intros L (d & E & I). rewrite nth_set in E by exact L. destruct (Nat.eqb_spec i b) as [->|N]; [injection E as <-; auto|].
  left. split; [exact N|]. exists d. auto.
Qed.
Lemma stmt_set h b c0 c x : nth_error h b = Some c0 -> is_stmt c0 = is_stmt c -> (stmt (set_nth b c h) x <-> stmt h x).
Proof.
  intros E K. unfold stmt. rewrite nth_set by (eapply nth_lt, E). destruct (Nat.eqb_spec x b) as [->|N]; [|tauto].
  rewrite E. split; intros (d & X & S); injection X as <-; eexists; (split; [reflexivity|congruence]).
Qed.
Lemma wf_set h b c0 c : wf h -> nth_error h b = Some c0 -> orphan h b -> ~ In b (below c) -> binds c0 = true -> binds c = true ->
  (forall x, In x (below c) -> In x (below c0) \/ (stmt h x /\ orphan h x)) -> NoDup (below c) -> wf (set_nth b c h).
Proof.
  intros W E Ob Nb B0 B H Tw. assert (L := nth_lt _ _ _ E).
  assert (T : forall c', binds c' = true -> is_stmt c' = true /\ holds_stmt c' = true) by (intros []; cbn; intros; try discriminate; auto).
  assert (Ks : forall x, In x (below c) -> stmt h x).
  { intros x I. destruct (H _ I) as [I0|[S _]]; [|exact S]. destruct (w_kind _ W _ _ _ E I0) as (c' & E' & K).
    exists c'. split; [exact E'|]. rewrite K. apply T, B0. }
  assert (Eq : is_stmt c0 = is_stmt c) by (rewrite (proj1 (T _ B0)), (proj1 (T _ B)); reflexivity).
  split.
  - intros i d x X I. assert (S : exists d', nth_error h x = Some d' /\ is_stmt d' = holds_stmt d).
    { rewrite nth_set in X by exact L. destruct (Nat.eqb_spec i b) as [->|N].
      - injection X as <-. destruct (Ks _ I) as (d' & Ed & Sd). exists d'. rewrite Sd, (proj2 (T _ B)). auto.
      - eapply (w_kind _ W); eassumption. }
    destruct S as (d' & Ed & Sd). rewrite nth_set by exact L. destruct (Nat.eqb_spec x b) as [->|N]; [|eauto].
    rewrite E in Ed. injection Ed as <-. exists c. split; [reflexivity|congruence].
  - intros i j x Ci Cj S. rewrite (stmt_set _ _ _ _ _ E Eq) in S. apply (child_set _ _ _ _ _ L) in Ci, Cj.
    assert (O : forall k, child h k x -> In x (below c) -> k = b).
    { intros k Ck I. destruct (H _ I) as [I0|[_ O]]; [|destruct (O _ Ck)]. eapply (w_own _ W); [exact Ck|exists c0; eauto|exact S]. }
    destruct Ci as [[Ni Ci]|[-> Ii]], Cj as [[Nj Cj]|[-> Ij]]; auto.
    + eapply (w_own _ W); eassumption.
    + symmetry. auto.
  - intros i d X. rewrite nth_set in X by exact L. destruct (i =? b); [injection X as <-; destruct c; try discriminate; reflexivity|eapply (w_fo _ W), X].
  - intros i d X Hd. rewrite nth_set in X by exact L. destruct (i =? b); [injection X as <-; exact Tw|eapply (w_two _ W); eassumption].
  - destruct (w_rank _ W) as (rk & R). exists (give rk b (above rk (below c))). intros i x C. apply (child_set _ _ _ _ _ L) in C. destruct C as [[N C]|[-> I]].
    + assert (x <> b) by (intros ->; exact (Ob _ C)). rewrite !give_other by assumption. apply R, C.
    + rewrite give_same, give_other by (intros ->; auto). apply above_lt, I.
Qed.
Lemma fresh_set h0 h b c0 c : fresh h0 h -> nth_error h b = Some c0 -> is_stmt c0 = is_stmt c -> length h0 <= b ->
  (forall x, In x (below c) -> stmt h x -> length h0 <= x) -> fresh h0 (set_nth b c h).
Proof.
  intros F E K B N. assert (L := nth_lt _ _ _ E). split.
  - rewrite set_nth_length. apply (f_len _ _ F).
  - intros i Li. rewrite set_nth_other by lia. apply (f_old _ _ F), Li.
  - intros i x Li C S. rewrite (stmt_set _ _ _ _ _ E K) in S. apply (child_set _ _ _ _ _ L) in C.
    destruct C as [[_ C]|[-> I]]; [eapply (f_new _ _ F); eassumption|]. apply N; assumption.
Qed.
Lemma orphan_set h b c x : b < length h -> orphan h x -> ~ In x (below c) -> orphan (set_nth b c h) x.
Proof. intros L O N i C. apply (child_set _ _ _ _ _ L) in C. destruct C as [[_ C]|[_ I]]; [exact (O _ C)|exact (N I)]. Qed.
Lemma free_set h b c r d : b < length h -> orphan h b -> r <> b -> free (set_nth b c h) r d -> free h r d.
Proof.
  intros L O N K. induction K as [r n d f E|r e x d E I K IH Nd].
  - rewrite set_nth_other in E by auto. econstructor 1; exact E.
  - rewrite set_nth_other in E by auto. econstructor 2; [exact E|exact I| |exact Nd]. apply IH. intros ->. apply (O r). exists e. auto.
Qed.

(** The binding [b] with its restriction extended by [r]. *)
Lemma wf_and h b q q' n f s r k : wf h -> nth_error h b = Some (CBinding q n f (Some s) None) -> orphan h b ->
  stmt h r -> orphan h r -> r <> b ->
  wf (set_nth b (CBinding q' n f (Some (length h)) None) (h ++ [CConnection k s r])).
Proof.
  intros W E Ob S O Nr. assert (L := nth_lt _ _ _ E). set (c := CBinding q' n f (Some (length h)) None).
  assert (Ss : stmt h s) by (destruct (w_kind _ W _ _ s E) as (c' & E' & K); [left; reflexivity|]; exists c'; auto).
  assert (Ls := stmt_lt _ _ Ss). assert (Lr := stmt_lt _ _ S).
  assert (Nb : s <> b) by (intros ->; apply (Ob b); eexists; split; [exact E|left; reflexivity]).
  assert (C : forall i x, child (set_nth b c (h ++ [CConnection k s r])) i x ->
    (i = b /\ x = length h) \/ (i = length h /\ (x = s \/ x = r)) \/ (i <> b /\ i < length h /\ child h i x)).
  { intros i x C. apply child_set in C; [|rewrite app_length; lia]. destruct C as [[N C]|[-> I]].
    - apply child_snoc in C. destruct C as [C|[-> I]]; [|cbn in I; intuition auto].
      right. right. split; [exact N|]. split; [|exact C]. destruct C as (e & X & _). eapply nth_lt, X.
    - cbn in I. intuition auto. }
  assert (X : forall x, x < length h -> x <> b -> nth_error (set_nth b c (h ++ [CConnection k s r])) x = nth_error h x).
  { intros x Lx Nx. rewrite set_nth_other by auto. apply nth_snoc_old, Lx. }
  assert (Xb : nth_error (set_nth b c (h ++ [CConnection k s r])) b = Some c) by (apply set_nth_same; rewrite app_length; lia).
  assert (Xn : nth_error (set_nth b c (h ++ [CConnection k s r])) (length h) = Some (CConnection k s r)) by (rewrite set_nth_other by lia; apply nth_snoc).
  assert (Kind : forall x e, nth_error h x = Some e -> exists e', nth_error (set_nth b c (h ++ [CConnection k s r])) x = Some e' /\ is_stmt e' = is_stmt e).
  { intros x e Ex. destruct (Nat.eq_dec x b) as [->|N]; [|exists e; rewrite X; [auto|eapply nth_lt, Ex|exact N]].
    rewrite E in Ex. injection Ex as <-. exists c. auto. }
  split.
  - intros i e x Ei I. assert (Ci : child (set_nth b c (h ++ [CConnection k s r])) i x) by (exists e; auto). apply C in Ci.
    destruct Ci as [[-> ->]|[[-> D]|(N & Li & Ci)]].
    + rewrite Xb in Ei. injection Ei as <-. eauto.
    + rewrite Xn in Ei. injection Ei as <-. assert (Sx : stmt h x) by (destruct D; congruence). destruct Sx as (e & Ex & Sx).
      destruct (Kind _ _ Ex) as (e' & E' & K'). exists e'. split; [exact E'|]. cbn [holds_stmt]. congruence.
    + rewrite X in Ei by assumption. destruct (w_kind _ W _ _ _ Ei I) as (e' & E' & K'). destruct (Kind _ _ E') as (e2 & E2 & K2). exists e2. split; [exact E2|congruence].
  - intros i j x Ci Cj Sx. apply C in Ci, Cj.
    assert (Os : forall i, i <> b -> child h i s -> False).
    { intros i0 N0 C0. apply N0. eapply (w_own _ W); [exact C0|eexists; split; [exact E|left; reflexivity]|exact Ss]. }
    assert (Sx' : x < length h -> stmt h x).
    { intros Lx. destruct Sx as (e & Ex & Kx). destruct (nth_error h x) as [e0|] eqn:E0; [|apply nth_error_None in E0; lia].
      destruct (Kind _ _ E0) as (e2 & E2 & K2). exists e0. split; [exact E0|congruence]. }
    destruct Ci as [[-> Hx]|[[-> Dx]|(Ni & Li & Ci)]], Cj as [[-> Hx']|[[-> Dx']|(Nj & Lj & Cj)]]; try reflexivity.
    all: try (exfalso; destruct Dx as [-> | ->]; try lia; try (eapply Os; eassumption); try (exact (O _ Cj)); fail).
    all: try (exfalso; destruct Dx' as [-> | ->]; try lia; try (eapply Os; eassumption); try (exact (O _ Ci)); fail).
    all: try (exfalso; subst x; match goal with C0 : child ?hh _ (length ?hh) |- _ => apply (child_lt _ _ _ W) in C0; lia end).
    eapply (w_own _ W); [exact Ci|exact Cj|]. apply Sx'. eapply child_lt; eassumption.
  - intros i e Ei. destruct (Nat.eq_dec i b) as [->|N]; [rewrite Xb in Ei; injection Ei as <-; reflexivity|].
    destruct (Nat.eq_dec i (length h)) as [->|Nl]; [rewrite Xn in Ei; injection Ei as <-; reflexivity|].
    assert (Li := nth_lt _ _ _ Ei). rewrite set_nth_length, app_length in Li. cbn in Li. rewrite X in Ei by lia. eapply (w_fo _ W), Ei.
  - intros i e Ei He. destruct (Nat.eq_dec i b) as [->|N]; [rewrite Xb in Ei; injection Ei as <-; repeat constructor; intros []|].
    destruct (Nat.eq_dec i (length h)) as [->|Nl].
    + rewrite Xn in Ei. injection Ei as <-. repeat constructor; [|intros []]. intros [->|[]]. apply (O b). eexists. split; [exact E|left; reflexivity].
    + assert (Li := nth_lt _ _ _ Ei). rewrite set_nth_length, app_length in Li. cbn in Li. rewrite X in Ei by lia. eapply (w_two _ W); eassumption.
  - destruct (w_rank _ W) as (rk & R). exists (give (give rk (length h) (above rk [s; r])) b (1 + above rk [s; r])). intros i x Ci. apply C in Ci.
    destruct Ci as [[-> ->]|[[-> D]|(N & Li & Ci)]].
    + rewrite give_same, give_other, give_same by lia. lia.
    + assert (D' : x <> b /\ x <> length h /\ In x [s; r]) by (destruct D as [-> | ->]; cbn; repeat split; auto; lia). destruct D' as (D1 & D2 & D3).
      rewrite (give_other _ b _ (length h)), give_same, !give_other by (assumption || lia). apply above_lt, D3.
    + assert (x <> b) by (intros ->; exact (Ob _ Ci)). assert (Lx := child_lt _ _ _ W Ci). rewrite !give_other by (assumption || lia). apply R, Ci.
Qed.
