(** Formulas and the heap of the interpreter. *)

From Coq Require Import String NArith List Bool Arith Lia.
From Verif Require Import Base Utf8 PegSyntax Tone Ast AstSorts Logic LogicWords LogicSpec ScopeSpec Interp OrderFacts SeqFacts TermFacts ScopeFacts ScopeInterp ScopeRun Meaning.
Import ListNotations.
Open Scope string_scope.
Open Scope list_scope.
Open Scope nat_scope.

(** ** Words *)

Ltac words := unfold listed, option_map; cbn [find fst snd]; repeat match goal with |- context [if has_text ?u ?a ?b then _ else _] => destruct (has_text u a b) end; split; intros E; try discriminate; injection E as <-; reflexivity.
Lemma connects_connector U w c : connects_as U w = Some c <-> connector U w = Ok c.
Proof. unfold connects_as, connector. words. Qed.
Lemma quantifies_quantifier U o q : quantifies_as U o = Some q <-> quantifier U o = Ok q.
Proof. unfold quantifies_as, quantifier. destruct o; [words|split; intros E; injection E as <-; reflexivity]. Qed.
Lemma links_pos U w n : links_to U w = Some n <-> go_pos U w = Ok n.
Proof. unfold links_to, go_pos. words. Qed.
Lemma pa_text U : has_text U (Wd "pa" 0 0 None) "pa" = true.
Proof.
  unfold has_text. cbn [w_t]. replace (untoned "pa") with "pa" by (vm_compute; reflexivity).
  generalize (runes "pa"). induction l as [|x l IH]; [reflexivity|]. cbn [same_text]. rewrite N.eqb_refl. exact IH.
Qed.

(** ** Trees whose numbers are the variables *)

Definition num (h : heap) (d : ref) (n : nat) : Prop := exists q f rs sc, nth_error h d = Some (CBinding q n f rs sc).
Inductive rthing (h : heap) : ref -> thing -> Prop :=
  | RTB r n d f : nth_error h r = Some (CVariable n (Some d) f) -> num h d n -> rthing h r (Bound n f)
  | RTF r n : nth_error h r = Some (CVariable n None false) -> rthing h r (Free n).
Inductive rprop (h : heap) : ref -> property -> Prop :=
  | RPN r s : nth_error h r = Some (CPred s) -> rprop h r (Named s)
  | RPU r t : rthing h r t -> rprop h r (Unnamed t)
  | RPS r x y p q : nth_error h r = Some (CSerial x y) -> rprop h x p -> rprop h y q -> rprop h r (Serial p q).
Inductive rform (h : heap) : ref -> formula -> Prop :=
  | RFH r x xs p l : nth_error h r = Some (CPredication x xs) -> rprop h x p -> Forall2 (optional (rthing h)) xs l -> rform h r (Holds p l)
  | RFB r c x y F G : nth_error h r = Some (CConnection c x y) -> rform h x F -> rform h y G -> rform h r (Both c F G)
  | RFQ r q n f s F : nth_error h r = Some (CBinding q n f None (Some s)) -> rform h s F -> rform h r (Quantified q n f None F)
  | RFR r q n f x s R F : nth_error h r = Some (CBinding q n f (Some x) (Some s)) -> rform h x R -> rform h s F -> rform h r (Quantified q n f (Some R) F).

Fixpoint rpred (h : heap) (p : pcon) (P : predicate) : Prop :=
  match p, P with
  | PPred r, One a => rprop h r a
  | PConn c l r, Two c' l' r' => c = c' /\ rpred h l l' /\ rpred h r r'
  | _, _ => False
  end.
Definition rargs (h : heap) (a : args) (b : list (thing * nat)) : Prop := Forall2 (fun x y => rthing h (fst x) (fst y) /\ snd x = snd y) a b.

(** A reading does not depend on the cells outside of the tree, except for the numbers of
    bindings. *)
Section Keep.
Variables (h h' : heap) (Q : ref -> Prop).
Hypothesis K : forall i c, nth_error h i = Some c -> Q i -> nth_error h' i = Some c.
Hypothesis C : forall i x, child h i x -> Q x.
Hypothesis Nu : forall d n, num h d n -> num h' d n.
Lemma keep_thing r t : rthing h r t -> Q r -> rthing h' r t.
Proof. intros H A. destruct H; [econstructor 1; [apply K; eassumption|auto]|constructor 2; auto]. Qed.
Lemma keep_prop r p : rprop h r p -> Q r -> rprop h' r p.
Proof.
  intros H. induction H; intros A; [constructor 1; auto|constructor 2; apply keep_thing; assumption|].
  econstructor 3; [apply K; eassumption|apply IHrprop1|apply IHrprop2]; eapply C; eexists; (split; [eassumption|cbn; auto]).
Qed.
Lemma keep_opts r x xs l : nth_error h r = Some (CPredication x xs) -> Forall2 (optional (rthing h)) xs l -> Forall2 (optional (rthing h')) xs l.
Proof.
  intros E H. assert (I : forall y, In (Some y) xs -> Q y).
  { intros y I. apply (C r). eexists. split; [exact E|]. right. apply in_flat_map. exists (Some y). split; [exact I|left; reflexivity]. }
  clear E. induction H as [|o t xs l O H IH]; constructor; [|apply IH; intros y J; apply I; right; exact J].
  destruct O; constructor. apply keep_thing; [assumption|apply I; left; reflexivity].
Qed.
Lemma keep_form r F : rform h r F -> Q r -> rform h' r F.
Proof.
  intros H. induction H; intros A.
  - econstructor 1; [apply K; eassumption|eapply keep_prop; [eassumption|eapply C; eexists; split; [eassumption|left; reflexivity]]|eapply keep_opts; eassumption].
  - econstructor 2; [apply K; eassumption|apply IHrform1|apply IHrform2]; eapply C; eexists; (split; [eassumption|cbn; auto]).
  - econstructor 3; [apply K; eassumption|apply IHrform]; eapply C; eexists; (split; [eassumption|cbn; auto]).
  - econstructor 4; [apply K; eassumption|apply IHrform1|apply IHrform2]; eapply C; eexists; (split; [eassumption|cbn; auto]).
Qed.
End Keep.

Definition grows (h h' : heap) : Prop := forall i c, nth_error h i = Some c -> nth_error h' i = Some c.
Lemma grows_refl h : grows h h.
Proof. intros i c E. exact E. Qed.
Lemma grows_trans a b c : grows a b -> grows b c -> grows a c.
Proof. intros X Y i d E. auto. Qed.
Lemma grows_snoc h c : grows h (h ++ [c]).
Proof. intros i d E. rewrite nth_snoc_old; [exact E|eapply nth_lt, E]. Qed.
Lemma ext_grows s s' : ext s s' -> grows (s_heap s) (s_heap s').
Proof. intros X i c E. eapply ext_nth; eassumption. Qed.
Lemma num_grows h h' d n : grows h h' -> num h d n -> num h' d n.
Proof. intros G (q & f & rs & sc & E). exists q, f, rs, sc. auto. Qed.
Lemma thing_grows h h' r t : grows h h' -> rthing h r t -> rthing h' r t.
Proof. intros G H. eapply (keep_thing h h' (fun _ => True)); eauto. intros. eapply num_grows; eassumption. Qed.
Lemma prop_grows h h' r t : grows h h' -> rprop h r t -> rprop h' r t.
Proof. intros G H. eapply (keep_prop h h' (fun _ => True)); eauto. intros. eapply num_grows; eassumption. Qed.
Lemma form_grows h h' r t : grows h h' -> rform h r t -> rform h' r t.
Proof. intros G H. eapply (keep_form h h' (fun _ => True)); eauto. intros. eapply num_grows; eassumption. Qed.
Lemma pred_grows h h' : grows h h' -> forall p P, rpred h p P -> rpred h' p P.
Proof.
  intros G. induction p as [r|c l IHl r IHr]; intros [a|c' l' r']; cbn; try contradiction; [apply prop_grows, G|]. intros (-> & A & B). auto.
Qed.
Lemma args_grows h h' a b : grows h h' -> rargs h a b -> rargs h' a b.
Proof. intros G H. induction H as [|x y a b [A B] H IH]; constructor; [|exact IH]. split; [eapply thing_grows; eassumption|exact B]. Qed.

(** A binding that is nobody's child changes, not its number. *)
Section Put.
Variables (h : heap) (b : ref) (q : quant) (n : nat) (f : bool) (rs sc : option ref) (q' : quant) (f' : bool) (rs' sc' : option ref).
Hypothesis B : nth_error h b = Some (CBinding q n f rs sc).
Hypothesis O : orphan h b.
Notation h' := (set_nth b (CBinding q' n f' rs' sc') h).
Lemma num_put d m : num h' d m <-> num h d m.
Proof.
  unfold num. rewrite nth_set by (eapply nth_lt, B). destruct (Nat.eqb_spec d b) as [->|N]; [|tauto].
  rewrite B. split; intros (a1 & a2 & a3 & a4 & E); injection E as <- <- <- <- <-; eauto 6.
Qed.
Lemma put_old i c : nth_error h i = Some c -> i <> b -> nth_error h' i = Some c.
Proof. intros E N. rewrite set_nth_other by auto. exact E. Qed.
Lemma put_child i x : child h i x -> x <> b.
Proof. intros X ->. exact (O _ X). Qed.
Lemma form_put r F : rform h r F -> r <> b -> rform h' r F.
Proof. intros H N. eapply (keep_form h h' (fun x => x <> b)); [apply put_old|apply put_child| |exact H|exact N]. intros d m. apply num_put. Qed.
Lemma thing_put r t : rthing h r t -> rthing h' r t.
Proof.
  intros H. eapply (keep_thing h h' (fun x => x <> b)); [apply put_old| |exact H|].
  - intros d m. apply num_put.
  - intros ->. destruct H; congruence.
Qed.
Lemma args_put a l : rargs h a l -> rargs h' a l.
Proof. intros H. induction H as [|x y a l [A E] H IH]; constructor; [|exact IH]. split; [apply thing_put, A|exact E]. Qed.
End Put.

(** ** Numbers *)

Record nums (h : heap) (n : nat) : Prop := Nums {
  u_lt : forall d m, num h d m -> m < n;
  u_one : forall d d' m, num h d m -> num h d' m -> d = d';
  u_free : forall r m f, nth_error h r = Some (CVariable m None f) -> m < n /\ forall d, ~ num h d m;
  u_same : forall r r' m f f', nth_error h r = Some (CVariable m None f) -> nth_error h r' = Some (CVariable m None f') -> r = r' }.

Lemma num_snoc h c d m : num (h ++ [c]) d m -> num h d m \/ (d = length h /\ exists q f rs sc, c = CBinding q m f rs sc).
Proof. intros (q & f & rs & sc & E). apply nth_snoc_inv in E. destruct E as [[L E]|[-> <-]]; [left; exists q, f, rs, sc; exact E|right; eauto 6]. Qed.
Lemma nums_plain h n c : nums h n -> (forall q m f rs sc, c <> CBinding q m f rs sc) -> (forall m f, c <> CVariable m None f) -> nums (h ++ [c]) n.
Proof.
  intros [A B D Z] Nb Nv. assert (Nn : forall d m, num (h ++ [c]) d m -> num h d m).
  { intros d m N. apply num_snoc in N. destruct N as [N|(_ & q & f & rs & sc & E)]; [exact N|destruct (Nb _ _ _ _ _ E)]. }
  split.
  - intros d m N. eapply A, Nn, N.
  - intros d d' m N N'. eapply B; apply Nn; eassumption.
  - intros r m f E. apply nth_snoc_inv in E. destruct E as [[L E]|[-> E]]; [|destruct (Nv m f); congruence]. destruct (D _ _ _ E) as [L' N]. split; [exact L'|]. intros d K. eapply N, Nn, K.
  - intros r r' m f f' E E'. apply nth_snoc_inv in E, E'. destruct E as [[_ E]|[_ E]]; [|destruct (Nv m f); congruence]. destruct E' as [[_ E']|[_ E']]; [|destruct (Nv m f'); congruence]. eapply Z; eassumption.
Qed.
Lemma nums_binding h n q f rs sc : nums h n -> nums (h ++ [CBinding q n f rs sc]) (S n).
Proof.
  intros [A B D Z]. split.
  - intros d m N. apply num_snoc in N. destruct N as [N|(_ & q0 & f0 & rs0 & sc0 & E)]; [apply A in N; lia|injection E as _ <- _ _ _; lia].
  - intros d d' m N N'. apply num_snoc in N, N'. destruct N as [N|(-> & q0 & f0 & rs0 & sc0 & E)], N' as [N'|(-> & q1 & f1 & rs1 & sc1 & E')]; eauto.
    + injection E' as _ <- _ _ _. apply A in N. lia.
    + injection E as _ <- _ _ _. apply A in N'. lia.
  - intros r m f0 E. apply nth_snoc_inv in E. destruct E as [[L E]|[-> E]]; [|discriminate]. destruct (D _ _ _ E) as [L' N]. split; [lia|].
    intros d K. apply num_snoc in K. destruct K as [K|(_ & q0 & f1 & rs0 & sc0 & E')]; [eapply N, K|]. injection E' as _ <- _ _ _. lia.
  - intros r r' m g g' E E'. apply nth_snoc_inv in E, E'. destruct E as [[_ E]|[_ E]]; [|discriminate]. destruct E' as [[_ E']|[_ E']]; [|discriminate]. eapply Z; eassumption.
Qed.
Lemma nums_var h n f : nums h n -> nums (h ++ [CVariable n None f]) (S n).
Proof.
  intros [A B D Z]. assert (Nn : forall d m, num (h ++ [CVariable n None f]) d m -> num h d m).
  { intros d m N. apply num_snoc in N. destruct N as [N|(_ & q & f0 & rs & sc & E)]; [exact N|discriminate]. }
  split.
  - intros d m N. apply Nn, A in N. lia.
  - intros d d' m N N'. eapply B; apply Nn; eassumption.
  - intros r m f0 E. apply nth_snoc_inv in E. destruct E as [[L E]|[-> E]].
    + destruct (D _ _ _ E) as [L' N]. split; [lia|]. intros d K. eapply N, Nn, K.
    + injection E as -> ->. split; [lia|]. intros d K. apply Nn, A in K. lia.
  - intros r r' m g g' E E'. apply nth_snoc_inv in E, E'. destruct E as [[_ E]|[-> E]], E' as [[_ E']|[-> E']].
    + eapply Z; eassumption.
    + injection E' as <- <-. apply D in E. lia.
    + injection E as <- <-. apply D in E'. lia.
    + reflexivity.
Qed.
Lemma nums_put h n b q m f rs sc q' f' rs' sc' : nums h n -> nth_error h b = Some (CBinding q m f rs sc) -> nums (set_nth b (CBinding q' m f' rs' sc') h) n.
Proof.
  intros [A B D Z] E. split.
  - intros d k N. apply (num_put _ _ _ _ _ _ _ q' f' rs' sc' E) in N. eapply A, N.
  - intros d d' k N N'. apply (num_put _ _ _ _ _ _ _ q' f' rs' sc' E) in N, N'. eapply B; eassumption.
  - intros r k f0 V. rewrite nth_set in V by (eapply nth_lt, E). destruct (Nat.eqb_spec r b); [discriminate|]. destruct (D _ _ _ V) as [L N]. split; [exact L|].
    intros d K. apply (num_put _ _ _ _ _ _ _ q' f' rs' sc' E) in K. eapply N, K.
  - intros r r' k g g' V V'. rewrite nth_set in V, V' by (eapply nth_lt, E). destruct (Nat.eqb_spec r b); [discriminate|]. destruct (Nat.eqb_spec r' b); [discriminate|]. eapply Z; eassumption.
Qed.

(** ** Arguments in their places *)

Lemma forall2_length {A B} (R : A -> B -> Prop) l m : Forall2 R l m -> length l = length m.
Proof. intros H. induction H; cbn; congruence. Qed.
Section Order2.
Context {A B : Type} (R : A -> B -> Prop).
Let RA (x : A * nat) (y : B * nat) : Prop := R (fst x) (fst y) /\ snd x = snd y.
Lemma set_nth_rel n x y : optional R x y -> forall l m, Forall2 (optional R) l m -> Forall2 (optional R) (set_nth n x l) (set_nth n y m).
Proof. revert n. intros n O l m H. revert n. induction H; intros [|n]; cbn; constructor; auto. Qed.
Lemma nargs_rel a b : Forall2 RA a b -> nargs a = nargs b.
Proof.
  intros H. unfold nargs. rewrite (forall2_length _ _ _ H). generalize (length b). induction H as [|x y a b [_ E] H IH]; intros n; [reflexivity|]. cbn [fold_left]. rewrite E. apply IH.
Qed.
Lemma linked_rel a b : Forall2 RA a b -> forall l m, Forall2 (optional R) l m -> Forall2 (optional R) (place_linked a l) (place_linked b m).
Proof.
  unfold place_linked. intros H. induction H as [|[x p] [y p'] a b [Rx E] H IH]; intros l m L; [exact L|]. cbn [fold_left fst snd] in *. subst p'. apply IH.
  destruct p as [|p]; [exact L|]. apply set_nth_rel; [constructor; exact Rx|exact L].
Qed.
Lemma empty_rel x y l m l' : R x y -> Forall2 (optional R) l m -> next_empty l x = Ok l' -> exists m', next_empty m y = Ok m' /\ Forall2 (optional R) l' m'.
Proof.
  intros Rx L. revert l'. induction L as [|o o' l m O L IH]; intros l' E; [discriminate|]. cbn [next_empty] in *. destruct O as [|a b O].
  - injection E as <-. eexists. split; [reflexivity|]. constructor; [constructor; exact Rx|exact L].
  - destruct (next_empty l x) as [l1| |]; cbn [bind] in E; try discriminate. injection E as <-. destruct (IH _ eq_refl) as (m1 & -> & K).
    eexists. split; [reflexivity|]. constructor; [constructor; exact O|exact K].
Qed.
Lemma unlinked_rel a b : Forall2 RA a b -> forall l m l', Forall2 (optional R) l m -> place_unlinked a l = Ok l' ->
  exists m', place_unlinked b m = Ok m' /\ Forall2 (optional R) l' m'.
Proof.
  intros H. induction H as [|[x p] [y p'] a b [Rx E] H IH]; intros l m l' L X; cbn [place_unlinked fst snd] in *; [injection X as <-; eauto|]. subst p'.
  destruct p as [|p]; [|eapply IH; eassumption]. destruct (next_empty l x) as [l1| |] eqn:N; cbn [bind] in X; try discriminate.
  destruct (empty_rel _ _ _ _ _ Rx L N) as (m1 & -> & K). cbn [bind]. eapply IH; eassumption.
Qed.
Lemma order_rel a b l : Forall2 RA a b -> order_arguments a = Ok l -> exists m, order_arguments b = Ok m /\ Forall2 (optional R) l m.
Proof.
  intros H E. unfold order_arguments in *. rewrite <- (nargs_rel _ _ H). eapply unlinked_rel; [exact H| |exact E]. apply linked_rel; [exact H|].
  clear. induction (nargs a) as [|k IH]; cbn; [constructor|constructor; [constructor|exact IH]].
Qed.
End Order2.

Lemma order_placed h a ta l : rargs h a ta -> order_arguments a = Ok l -> exists tl, placed ta tl /\ Forall2 (optional (rthing h)) l tl.
Proof.
  intros H E. destruct (order_rel (rthing h) _ _ _ H E) as (m & Em & K). exists m. split; [|exact K].
  destruct (order_spec ta) as (m' & k & E' & L & Li & Fr). rewrite Em in E'. injection E' as <-. split; [exact L|]. split; [exact Li|]. exists k. exact Fr.
Qed.
