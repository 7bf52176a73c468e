(** The heap that the interpreter builds is well typed, and its steps never panic. *)

From Coq Require Import String NArith List Bool Arith Lia.
From Verif Require Import Base PegSyntax Ast AstSorts Logic LogicWords LogicSpec Interp OrderFacts.
Import ListNotations.
Open Scope string_scope.
Open Scope list_scope.
Open Scope nat_scope.

(** ** Types of cells *)

(** A statement that is whole (a Binding with a scope), a predicate, an argument, a
    Binding. *)
Inductive ty : Type := TStmt | TPred | TArg | TBind.
Definition has (t : ty) (c : cell) : bool :=
  match t, c with
  | TStmt, CBinding _ _ _ _ (Some _) | TStmt, CConnection _ _ _ | TStmt, CPredication _ _ => true
  | TPred, CPred _ | TPred, CVariable _ _ _ | TPred, CAbstraction _ | TPred, CSerial _ _ | TPred, CSwap _ _ => true
  | TArg, CVariable _ _ _ | TArg, CPlurality _ | TArg, CQuote _ _ | TArg, CAbstraction _ => true
  | TBind, CBinding _ _ _ _ _ => true
  | _, _ => false
  end.
Definition is (h : heap) (t : ty) (r : ref) : Prop := exists c, nth_error h r = Some c /\ has t c = true.

Definition good (h : heap) (c : cell) : Prop :=
  match c with
  | CBinding _ _ _ rs sc => (forall x, rs = Some x -> is h TStmt x) /\ (forall x, sc = Some x -> is h TStmt x)
  | CConnection _ l r => is h TStmt l /\ is h TStmt r
  | CPredication p args => is h TPred p /\ forall a, In (Some a) args -> is h TArg a
  | CVariable _ d _ => forall x, d = Some x -> is h TBind x
  | CPlurality args => forall a, In (Some a) args -> is h TArg a
  | CAbstraction s => is h TStmt s
  | CSerial l r => is h TPred l /\ is h TPred r
  | CSwap p _ => is h TPred p
  | CQuote _ _ | CPred _ => True
  end.
Definition good_heap (h : heap) : Prop := forall r c, nth_error h r = Some c -> good h c.

Definition grows (h h' : heap) : Prop := forall t r, is h t r -> is h' t r.
Lemma grows_refl h : grows h h. Proof. intros t r H; exact H. Qed.
Lemma grows_trans h1 h2 h3 : grows h1 h2 -> grows h2 h3 -> grows h1 h3. Proof. intros A B t r H. apply B, A, H. Qed.
Lemma good_grows h h' c : grows h h' -> good h c -> good h' c.
Proof.
  intros G. destruct c; cbn [good]; intros H; try exact H.
  - destruct H as [H1 H2]. split; intros x E; apply G; auto.
  - destruct H. split; apply G; assumption.
  - destruct H as [H1 H2]. split; [apply G, H1|]. intros a I. apply G, H2, I.
  - intros x E. apply G, H, E.
  - intros a I. apply G, H, I.
  - apply G, H.
  - destruct H. split; apply G; assumption.
  - apply G, H.
Qed.
Lemma is_lt h t r : is h t r -> r < length h.
Proof. intros (c & E & _). apply nth_error_Some. congruence. Qed.

Lemma grows_app h c : grows h (h ++ [c]).
Proof. intros t r (x & E & H). exists x. split; [|exact H]. rewrite nth_error_app1; [exact E|]. apply nth_error_Some. congruence. Qed.
Lemma nth_app h (c : cell) : nth_error (h ++ [c]) (length h) = Some c.
Proof. rewrite nth_error_app2, Nat.sub_diag by lia. reflexivity. Qed.
Lemma good_app h c : good_heap h -> good h c -> good_heap (h ++ [c]).
Proof.
  intros H Hc r x E. apply (good_grows h); [apply grows_app|]. destruct (Nat.lt_ge_cases r (length h)) as [L|L].
  - rewrite nth_error_app1 in E by exact L. exact (H _ _ E).
  - rewrite nth_error_app2 in E by exact L. destruct (r - length h) as [|k]; cbn in E; [injection E as <-; exact Hc|destruct k; discriminate].
Qed.

Lemma grows_set h r c c' : nth_error h r = Some c -> (forall t, has t c = true -> has t c' = true) -> grows h (set_nth r c' h).
Proof.
  intros E H t x (y & Ey & Hy). destruct (Nat.eq_dec x r) as [->|N].
  - exists c'. split; [apply set_nth_same, nth_error_Some; congruence|]. apply H. congruence.
  - exists y. rewrite set_nth_other by auto. auto.
Qed.
Lemma good_set h r c c' : nth_error h r = Some c -> (forall t, has t c = true -> has t c' = true) ->
  good_heap h -> good h c' -> good_heap (set_nth r c' h).
Proof.
  intros E T H Hc x y Ey. apply (good_grows h); [eapply grows_set; eassumption|]. destruct (Nat.eq_dec x r) as [->|N].
  - rewrite set_nth_same in Ey by (apply nth_error_Some; congruence). injection Ey as <-. exact Hc.
  - rewrite set_nth_other in Ey by auto. exact (H _ _ Ey).
Qed.

(** ** What a method leaves unchanged *)
Definition kind (c : cell) : nat :=
  match c with
  | CBinding _ _ _ _ _ => 0 | CConnection _ _ _ => 1 | CPredication _ _ => 2 | CVariable _ _ _ => 3 | CPlurality _ => 4
  | CQuote _ _ => 5 | CPred _ => 6 | CAbstraction _ => 7 | CSerial _ _ => 8 | CSwap _ _ => 9
  end.
Definition scope_of (c : cell) : option ref := match c with CBinding _ _ _ _ sc => sc | _ => None end.
Definition like (c c' : cell) : Prop := kind c = kind c' /\ scope_of c = scope_of c'.
Lemma like_has c c' t : like c c' -> has t c = true -> has t c' = true.
Proof. intros [K S]. destruct c, c'; cbn in K, S; try discriminate K; subst; destruct t; exact (fun H => H). Qed.
Definition keeps (h h' : heap) : Prop :=
  forall r c, nth_error h r = Some c -> exists c', nth_error h' r = Some c' /\ like c c'.
Lemma keeps_refl h : keeps h h. Proof. intros r c E. exists c. repeat split; exact E. Qed.
Lemma keeps_trans h1 h2 h3 : keeps h1 h2 -> keeps h2 h3 -> keeps h1 h3.
Proof.
  intros A B r c E. destruct (A _ _ E) as (c' & E' & K & S). destruct (B _ _ E') as (c'' & E'' & K' & S').
  exists c''. split; [exact E''|]. split; congruence.
Qed.
Lemma keeps_grows h h' : keeps h h' -> grows h h'.
Proof. intros K t r (c & E & H). destruct (K _ _ E) as (c' & E' & L). exists c'. split; [exact E'|]. eapply like_has; eassumption. Qed.
Lemma keeps_length h h' : keeps h h' -> length h <= length h'.
Proof.
  intros K. destruct (Nat.le_gt_cases (length h) (length h')) as [L|L]; [exact L|].
  destruct (nth_error h (length h')) as [c|] eqn:E; [|apply nth_error_None in E; lia].
  destruct (K _ _ E) as (c' & E' & _). assert (length h' < length h') by (apply nth_error_Some; congruence). lia.
Qed.
Lemma keeps_app h c : keeps h (h ++ [c]).
Proof. intros r x E. exists x. split; [|split; reflexivity]. rewrite nth_error_app1; [exact E|]. apply nth_error_Some. congruence. Qed.
Lemma keeps_set h r c c' : nth_error h r = Some c -> like c c' -> keeps h (set_nth r c' h).
Proof.
  intros E L x y Ey. destruct (Nat.eq_dec x r) as [->|N].
  - exists c'. split; [apply set_nth_same, nth_error_Some; congruence|]. congruence.
  - exists y. rewrite set_nth_other by auto. split; [exact Ey|]. split; reflexivity.
Qed.
(** A change of a cell that was not there. *)
Lemma keeps_new h0 h r c : keeps h0 h -> length h0 <= r -> keeps h0 (set_nth r c h).
Proof.
  intros K L x y Ey. destruct (K _ _ Ey) as (y' & E & H). exists y'. split; [|exact H]. rewrite set_nth_other; [exact E|].
  assert (x < length h0) by (apply nth_error_Some; congruence). lia.
Qed.

Definition hi_ext (n : nat) (l l' : list (list ref)) : Prop :=
  match l with
  | [] => l' = []
  | t :: r => exists new, l' = (t ++ new) :: r /\ Forall (le n) new
  end.
Definition pending (s : st) : list ref := s_the s ++ concat (s_hi s).
Record step (s s' : st) : Prop := Step {
  st_keeps : keeps (s_heap s) (s_heap s');
  st_the : exists new, s_the s' = s_the s ++ new /\ Forall (le (length (s_heap s))) new;
  st_hi : hi_ext (length (s_heap s)) (s_hi s) (s_hi s')
}.
Lemma hi_ext_refl n l : hi_ext n l l.
Proof. destruct l as [|t r]; cbn; [reflexivity|]. exists []. rewrite app_nil_r. auto. Qed.
Lemma step_refl s : step s s.
Proof. split; [apply keeps_refl|exists []; rewrite app_nil_r; auto|apply hi_ext_refl]. Qed.
Lemma Forall_le n m l : n <= m -> Forall (le m) l -> Forall (le n) l.
Proof. intros L. apply Forall_impl. lia. Qed.
Lemma step_trans s1 s2 s3 : step s1 s2 -> step s2 s3 -> step s1 s3.
Proof.
  intros [K (n1 & T1 & F1) H1] [K' (n2 & T2 & F2) H2]. assert (L := keeps_length _ _ K). split.
  - eapply keeps_trans; eassumption.
  - exists (n1 ++ n2). rewrite T2, T1, app_assoc. split; [reflexivity|]. apply Forall_app. split; [exact F1|]. eapply Forall_le; eassumption.
  - unfold hi_ext in *. destruct (s_hi s1) as [|t r]; [rewrite H1 in H2; exact H2|]. destruct H1 as (m1 & E1 & G1). rewrite E1 in H2.
    destruct H2 as (m2 & E2 & G2). exists (m1 ++ m2). rewrite E2, app_assoc. split; [reflexivity|]. apply Forall_app. split; [exact G1|]. eapply Forall_le; eassumption.
Qed.
Lemma step_pending s s' x : step s s' -> In x (pending s') -> In x (pending s) \/ length (s_heap s) <= x.
Proof.
  intros [K (n1 & T & F) H] I. unfold pending in *. rewrite in_app_iff in *. rewrite T, in_app_iff in I.
  rewrite Forall_forall in F. destruct I as [[I|I]|I]; [tauto|right; apply F, I|]. unfold hi_ext in H.
  destruct (s_hi s) as [|t r]; [rewrite H in I; contradiction|]. destruct H as (n2 & E & G). rewrite E in I. cbn [concat] in *.
  rewrite <- app_assoc, !in_app_iff in I. rewrite in_app_iff. rewrite Forall_forall in G. destruct I as [I|[I|I]]; [tauto| |tauto]. right. apply G, I.
Qed.

(** ** The state *)
Definition open (h : heap) (b : ref) : Prop := exists q n f rs, nth_error h b = Some (CBinding q n f rs None).
Record inv_ (P : list ref) (s : st) : Prop := Inv {
  i_good : good_heap (s_heap s);
  i_hoa : Forall (is (s_heap s) TBind) (s_hoa s);
  i_vars : Forall (fun p => is (s_heap s) TBind (snd p)) (s_vars s);
  i_lifted : Forall (fun p => is (s_heap s) TBind (snd p)) (s_lifted s);
  i_open : forall b, In b P -> open (s_heap s) b;
  i_nodup : NoDup P
}.
Definition inv (s : st) : Prop := inv_ (pending s) s.

(** A binding that is open and that nobody else will close. *)
Definition mine (s : st) (b : ref) : Prop := open (s_heap s) b /\ ~ In b (pending s).

Lemma open_like h h' b : keeps h h' -> open h b -> open h' b.
Proof.
  intros K (q & n & f & rs & E). destruct (K _ _ E) as (c' & E' & Kd & Sc). destruct c'; cbn in Kd, Sc; try discriminate. subst.
  do 4 eexists. exact E'.
Qed.
Lemma open_lt h b : open h b -> b < length h.
Proof. intros (q & n & f & rs & E). apply nth_error_Some. congruence. Qed.
Lemma open_is h b : open h b -> is h TBind b.
Proof. intros (q & n & f & rs & E). eexists. split; [exact E|reflexivity]. Qed.
Lemma mine_step s s' b : step s s' -> mine s b -> mine s' b.
Proof.
  intros S [O N]. split; [eapply open_like; [exact (st_keeps _ _ S)|exact O]|]. intros I.
  destruct (step_pending _ _ _ S I) as [J|J]; [contradiction|]. apply open_lt in O. lia.
Qed.
Lemma is_step s s' t r : step s s' -> is (s_heap s) t r -> is (s_heap s') t r.
Proof. intros S. apply keeps_grows, (st_keeps _ _ S). Qed.
Lemma step_length s s' : step s s' -> length (s_heap s) <= length (s_heap s').
Proof. intros S. apply keeps_length, (st_keeps _ _ S). Qed.

(** A change of the heap only. *)
Lemma step_heap s h : keeps (s_heap s) h -> step s (with_heap s h).
Proof. intros K. split; [exact K|exists []; rewrite app_nil_r; split; [reflexivity|constructor]|apply hi_ext_refl]. Qed.
Lemma inv_heap P s h : inv_ P s -> keeps (s_heap s) h -> good_heap h -> inv_ P (with_heap s h).
Proof.
  intros I K G. assert (W := keeps_grows _ _ K). split; cbn.
  - exact G.
  - eapply Forall_impl; [|exact (i_hoa _ _ I)]. intros; apply W; assumption.
  - eapply Forall_impl; [|exact (i_vars _ _ I)]. intros; apply W; assumption.
  - eapply Forall_impl; [|exact (i_lifted _ _ I)]. intros; apply W; assumption.
  - intros b B. eapply open_like; [exact K|]. apply (i_open _ _ I), B.
  - exact (i_nodup _ _ I).
Qed.

(** ** Runs without panics *)
Definition safe {S A} (m : Logic.M S A) (s : S) (Q : A -> S -> Prop) : Prop :=
  match m s with Ok (a, s') => Q a s' | Panic _ => False | NoFuel => True end.
Lemma safe_ret {S A} (a : A) (s : S) (Q : A -> S -> Prop) : Q a s -> safe (ret a) s Q.
Proof. exact (fun H => H). Qed.
Lemma safe_bind {S A B} (m : Logic.M S A) (f : A -> Logic.M S B) s Q :
  safe m s (fun a s' => safe (f a) s' Q) -> safe (mbind m f) s Q.
Proof. unfold safe, mbind. destruct (m s) as [[a s']| |]; auto. Qed.
Lemma safe_weaken {S A} (m : Logic.M S A) s (Q Q' : A -> S -> Prop) : safe m s Q -> (forall a s', Q a s' -> Q' a s') -> safe m s Q'.
Proof. unfold safe. destruct (m s) as [[a s']| |]; auto. Qed.
Lemma safe_lift {S A} (r : res A) s (Q : A -> S -> Prop) : (exists a, r = Ok a /\ Q a s) -> safe (lift r) s Q.
Proof. intros (a & -> & H). exact H. Qed.
Lemma safe_fuel {S A} s (Q : A -> S -> Prop) : safe out_of_fuel s Q.
Proof. exact I. Qed.

(** Each primitive is a step that keeps the invariant. *)
Lemma safe_alloc c s (Q : ref -> st -> Prop) : inv s -> good (s_heap s) c ->
  (forall r s', inv s' -> step s s' -> nth_error (s_heap s') r = Some c -> length (s_heap s) <= r -> pending s' = pending s ->
     s_hi s' = s_hi s -> Q r s') -> safe (alloc c) s Q.
Proof.
  intros I G H. cbn. apply H; cbn; try reflexivity.
  - apply inv_heap; [exact I|apply keeps_app|apply good_app; [exact (i_good _ _ I)|exact G]].
  - apply step_heap, keeps_app.
  - apply nth_app.
Qed.
Lemma safe_new_var s (Q : nat -> st -> Prop) : inv s ->
  (forall x s', inv s' -> step s s' -> s_heap s' = s_heap s -> s_hi s' = s_hi s -> Q x s') -> safe new_var s Q.
Proof.
  intros I H. cbn. apply H; cbn; try reflexivity.
  - destruct I as [I1 I2 I3 I4 I5 I6]. split; assumption.
  - split; cbn; [apply keeps_refl|exists []; rewrite app_nil_r; auto|apply hi_ext_refl].
Qed.
Lemma safe_push_var v b s (Q : nat -> st -> Prop) : inv s -> is (s_heap s) TBind b ->
  (forall x s', inv s' -> step s s' -> s_heap s' = s_heap s -> s_hi s' = s_hi s -> Q x s') -> safe (push_var v b) s Q.
Proof.
  intros I B H. unfold push_var. cbn. apply H; cbn; try reflexivity.
  - destruct I as [I1 I2 I3 I4 I5 I6]. split; try assumption. cbn. constructor; assumption.
  - split; cbn; [apply keeps_refl|exists []; rewrite app_nil_r; auto|apply hi_ext_refl].
Qed.
Lemma safe_get_binding b s (Q : bnd -> st -> Prop) : is (s_heap s) TBind b ->
  (forall q n f rs sc, nth_error (s_heap s) b = Some (CBinding q n f rs sc) -> Q (Bnd q n f rs sc) s) -> safe (get_binding b) s Q.
Proof.
  intros (c & E & T) H. unfold get_binding, safe, mbind, get. rewrite E. destruct c; cbn in T; try discriminate T. apply H. exact E.
Qed.
Lemma safe_lookup v s (Q : nat * option ref -> st -> Prop) : inv s ->
  (forall x o s', inv s' -> step s s' -> s_hi s' = s_hi s -> (forall d, o = Some d -> is (s_heap s') TBind d) -> Q (x, o) s') -> safe (lookup_var v) s Q.
Proof.
  intros I H. unfold safe, lookup_var. destruct (find _ (s_vars s)) as [[k d]|] eqn:F.
  - apply find_some in F. destruct F as [F _]. assert (B := i_vars _ _ I). rewrite Forall_forall in B. specialize (B _ F). cbn in B.
    change (safe (do b <- get_binding d; ret (b_n b, Some d)) s Q). apply safe_bind, safe_get_binding; [exact B|]. intros. cbn.
    apply H; auto using step_refl. intros e X. injection X as <-. exact B.
  - change (safe (do x <- new_var; ret (x, None)) s Q). apply safe_bind, safe_new_var; [exact I|]. intros. apply H; auto. discriminate.
Qed.

(** Writing a field of a binding other than its scope. *)
Lemma safe_set_field (g : bnd -> bnd) b s (Q : unit -> st -> Prop) : inv s -> is (s_heap s) TBind b ->
  (forall x, b_scope (g x) = b_scope x) ->
  (forall x, b_restr (g x) = b_restr x \/ exists r, b_restr (g x) = Some r /\ is (s_heap s) TStmt r) ->
  (forall s', inv s' -> step s s' -> pending s' = pending s -> s_hi s' = s_hi s -> Q tt s') ->
  safe (do x <- get_binding b ; set_binding b (g x)) s Q.
Proof.
  intros I B Gs Gr H. apply safe_bind, safe_get_binding; [exact B|]. intros q n f rs sc E. unfold safe, set_binding, set.
  set (y := g (Bnd q n f rs sc)). assert (Ys : b_scope y = sc) by (apply (Gs (Bnd q n f rs sc))).
  assert (L : like (CBinding q n f rs sc) (CBinding (b_q y) (b_n y) (b_focus y) (b_restr y) (b_scope y))) by (split; cbn; congruence).
  apply H; cbn; try reflexivity.
  - apply inv_heap; [exact I|eapply keeps_set; eassumption|]. eapply good_set; [exact E|intros t; apply like_has; exact L|exact (i_good _ _ I)|].
    assert (G := i_good _ _ I _ _ E). destruct G as [G1 G2]. rewrite Ys. split; [|exact G2].
    destruct (Gr (Bnd q n f rs sc)) as [X|(r & X & R)]; fold y in X; rewrite X; [exact G1|]. intros z Z. injection Z as <-. exact R.
  - apply step_heap. eapply keeps_set; eassumption.
Qed.
Lemma safe_set_restriction b r s (Q : unit -> st -> Prop) : inv s -> is (s_heap s) TBind b -> is (s_heap s) TStmt r ->
  (forall s', inv s' -> step s s' -> pending s' = pending s -> s_hi s' = s_hi s -> Q tt s') -> safe (set_restriction b r) s Q.
Proof.
  intros I B R H. unfold set_restriction. apply (safe_set_field (fun b0 => Bnd (b_q b0) (b_n b0) (b_focus b0) (Some r) (b_scope b0))); auto.
  intros x. right. exists r. auto.
Qed.
Lemma safe_set_quantifier b q s (Q : unit -> st -> Prop) : inv s -> is (s_heap s) TBind b ->
  (forall s', inv s' -> step s s' -> pending s' = pending s -> s_hi s' = s_hi s -> Q tt s') -> safe (set_quantifier b q) s Q.
Proof.
  intros I B H. unfold set_quantifier. apply (safe_set_field (fun b0 => Bnd q (b_n b0) (b_focus b0) (b_restr b0) (b_scope b0))); auto.
Qed.
Lemma safe_set_focus b s (Q : unit -> st -> Prop) : inv s -> is (s_heap s) TBind b ->
  (forall s', inv s' -> step s s' -> pending s' = pending s -> s_hi s' = s_hi s -> Q tt s') -> safe (set_focus b) s Q.
Proof.
  intros I B H. unfold set_focus. apply (safe_set_field (fun b0 => Bnd (b_q b0) (b_n b0) true (b_restr b0) (b_scope b0))); auto.
Qed.

(** Closing a binding. *)
Record closes (b : ref) (s s' : st) : Prop := Closes {
  c_grows : grows (s_heap s) (s_heap s');
  c_length : length (s_heap s') = length (s_heap s);
  c_mine : forall x, x <> b -> mine s x -> mine s' x;
  c_step : forall s0, step s0 s -> length (s_heap s0) <= b -> step s0 s';
  c_hi : s_hi s' = s_hi s
}.
Lemma inv_close P s b q n f rs x : inv_ P s -> nth_error (s_heap s) b = Some (CBinding q n f rs None) -> ~ In b P ->
  is (s_heap s) TStmt x ->
  let s' := with_heap s (set_nth b (CBinding q n f rs (Some x)) (s_heap s)) in
  inv_ P s' /\ closes b s s' /\ is (s_heap s') TStmt b.
Proof.
  intros I E N X s'.
  assert (T : forall t, has t (CBinding q n f rs None) = true -> has t (CBinding q n f rs (Some x)) = true) by (intros []; cbn; auto).
  assert (W := grows_set _ _ _ _ E T). assert (G := i_good _ _ I _ _ E). destruct G as [G1 _].
  assert (O : forall y, y <> b -> open (s_heap s) y -> open (s_heap s') y).
  { intros y Y (q' & n' & f' & rs' & Ey). exists q', n', f', rs'. cbn. rewrite set_nth_other by auto. exact Ey. }
  split; [|split].
  - split; cbn.
    + eapply good_set; [exact E|exact T|exact (i_good _ _ I)|]. split; [exact G1|]. intros z Z. injection Z as <-. exact X.
    + eapply Forall_impl; [|exact (i_hoa _ _ I)]. intros; apply W; assumption.
    + eapply Forall_impl; [|exact (i_vars _ _ I)]. intros; apply W; assumption.
    + eapply Forall_impl; [|exact (i_lifted _ _ I)]. intros; apply W; assumption.
    + intros y Y. apply O; [intros ->; contradiction|]. apply (i_open _ _ I), Y.
    + exact (i_nodup _ _ I).
  - split; cbn.
    + exact W.
    + apply set_nth_length.
    + intros y Y [Oy Ny]. split; [apply O; assumption|exact Ny].
    + intros s0 S L. destruct S as [K T0 H]. split; cbn; [apply keeps_new; assumption|exact T0|exact H].
    + reflexivity.
  - eexists. cbn. split; [apply set_nth_same, nth_error_Some; congruence|reflexivity].
Qed.
Lemma safe_set_scope b x s (Q : unit -> st -> Prop) : inv s -> mine s b -> is (s_heap s) TStmt x ->
  (forall s', inv s' -> closes b s s' -> is (s_heap s') TStmt b -> Q tt s') -> safe (set_scope b x) s Q.
Proof.
  intros I [(q & n & f & rs & E) N] X H. unfold set_scope. apply safe_bind, safe_get_binding; [eexists; split; [exact E|reflexivity]|].
  intros q' n' f' rs' sc' E'. rewrite E in E'. injection E' as <- <- <- <- <-. unfold safe, set_binding, set. cbn [b_q b_n b_focus b_restr].
  destruct (inv_close _ s b q n f rs x I E N X) as (I' & C & B). apply H; assumption.
Qed.
Lemma safe_bind_scope vf b x s (Q : ref -> st -> Prop) : inv s -> mine s b -> is (s_heap s) TStmt x ->
  (forall s', inv s' -> closes b s s' -> is (s_heap s') TStmt b -> Q b s') -> safe (bind_scope vf (Some b) x) s Q.
Proof.
  intros I M X H. cbn [bind_scope]. destruct vf as [|vf]; [exact Logic.I|]. cbn [bind_scope_fuel].
  assert (M' := M). destruct M' as [(q & n & f & rs & E) N].
  apply safe_bind, safe_get_binding; [eexists; split; [exact E|reflexivity]|].
  intros q' n' f' rs' sc' E'. rewrite E in E'. injection E' as <- <- <- <- <-. cbn [b_scope].
  apply safe_bind, safe_set_scope; [exact I|exact M|exact X|]. intros s' I' C B. apply safe_ret, H; assumption.
Qed.
(** The same for a binding that may be nil. *)
Lemma safe_bind_opt vf o x s0 s (Q : ref -> st -> Prop) : inv s -> step s0 s ->
  (forall b, o = Some b -> mine s b /\ length (s_heap s0) <= b) -> is (s_heap s) TStmt x ->
  (forall y s', inv s' -> step s0 s' -> is (s_heap s') TStmt y -> s_hi s' = s_hi s -> Q y s') -> safe (bind_scope vf o x) s Q.
Proof.
  intros I S M X H. destruct o as [b|].
  - destruct (M b eq_refl) as [Mb L]. apply safe_bind_scope; [exact I|exact Mb|exact X|]. intros s' I' C B.
    apply H; [exact I'|apply (c_step _ _ _ C); assumption|exact B|exact (c_hi _ _ _ C)].
  - apply H; auto.
Qed.

(** Handing a binding over to theScope or hiScope. *)
Lemma safe_add_the b s (Q : unit -> st -> Prop) : inv s -> mine s b ->
  (forall s', inv s' -> s_heap s' = s_heap s -> s_hi s' = s_hi s -> (forall s0, step s0 s -> length (s_heap s0) <= b -> step s0 s') -> Q tt s') ->
  safe (add_the b) s Q.
Proof.
  intros I [O N] H. cbn. apply H; cbn; try reflexivity.
  - destruct I as [I1 I2 I3 I4 I5 I6]. split; cbn; try assumption.
    + intros x X. unfold pending in X. cbn in X. rewrite <- app_assoc, in_app_iff in X. destruct X as [X|[<-|X]]; [|exact O|];
        apply I5; unfold pending; rewrite in_app_iff; auto.
    + unfold pending in *. cbn. rewrite <- app_assoc. cbn. apply NoDup_Add with (a := b) (l := s_the s ++ concat (s_hi s)); [apply Add_app|auto].
  - intros s0 [K (new & T & F) Hi] L. split; cbn; [exact K| |exact Hi]. exists (new ++ [b]). rewrite T, app_assoc. split; [reflexivity|].
    apply Forall_app. auto.
Qed.
Lemma safe_add_hi b t r s : inv s -> mine s b -> s_hi s = t :: r ->
  forall (Q : unit -> st -> Prop),
  (forall s', inv s' -> s_heap s' = s_heap s -> s_hi s' = (t ++ [b]) :: r -> (forall s0, step s0 s -> length (s_heap s0) <= b -> step s0 s') -> Q tt s') ->
  safe (set_hi ((t ++ [b]) :: r)) s Q.
Proof.
  intros I [O N] E Q H. cbn. apply H; cbn; try reflexivity.
  - assert (P : Add b (pending s) (s_the s ++ concat ((t ++ [b]) :: r))).
    { unfold pending. rewrite E. cbn [concat]. rewrite (app_assoc (s_the s) t).
      replace (s_the s ++ (t ++ [b]) ++ concat r) with ((s_the s ++ t) ++ b :: concat r) by (rewrite <- !app_assoc; reflexivity). apply Add_app. }
    destruct I as [I1 I2 I3 I4 I5 I6]. split; cbn; try assumption.
    + intros x X. unfold pending in X. cbn [s_the s_hi] in X. apply (Add_in P) in X. destruct X as [<-|X]; [exact O|auto].
    + apply (NoDup_Add P). auto.
  - intros s0 [K (new & T & F) Hi] L. split; cbn; [exact K|eauto|]. unfold hi_ext in *. rewrite E in Hi.
    destruct (s_hi s0) as [|t0 r0]; [discriminate|]. destruct Hi as (nw & X & G). injection X as -> ->. exists (nw ++ [b]).
    rewrite app_assoc. split; [reflexivity|]. apply Forall_app. auto.
Qed.

(** ** Inside a method *)

(** [s0] is the state at the start of a method, [s] the present one. *)
Definition ctx (s0 s : st) : Prop := inv s /\ step s0 s.

(** What stays known from [s] to [s'], where at most the binding [e] is closed or handed
    over. *)
Record later (e : option ref) (s s' : st) : Prop := Later {
  l_grows : grows (s_heap s) (s_heap s');
  l_length : length (s_heap s) <= length (s_heap s');
  l_mine : forall x, e <> Some x -> mine s x -> mine s' x
}.
Lemma later_refl s : later None s s.
Proof. split; [apply grows_refl|lia|auto]. Qed.
Lemma later_trans e s1 s2 s3 : later None s1 s2 -> later e s2 s3 -> later e s1 s3.
Proof. intros [G N M] [G' N' M']. split; [eapply grows_trans; eassumption|lia|]. intros x E X. apply M'; [exact E|]. apply M; [discriminate|exact X]. Qed.
Lemma later_step s s' : step s s' -> later None s s'.
Proof. intros S. split; [apply keeps_grows, (st_keeps _ _ S)|apply step_length, S|]. intros x _. apply mine_step, S. Qed.
Lemma ctx_start s : inv s -> ctx s s.
Proof. intros I. split; [exact I|apply step_refl]. Qed.
Lemma ctx_step s0 s s' : ctx s0 s -> inv s' -> step s s' -> ctx s0 s'.
Proof. intros [_ A] I S. split; [exact I|eapply step_trans; eassumption]. Qed.
Lemma ctx_length s0 s : ctx s0 s -> length (s_heap s0) <= length (s_heap s).
Proof. intros [_ S]. apply step_length, S. Qed.
Lemma ctx_hi s0 s : ctx s0 s -> s_hi s0 <> [] -> s_hi s <> [].
Proof. intros [_ [_ _ H]] N E. unfold hi_ext in H. destruct (s_hi s0) as [|t r]; [contradiction|]. destruct H as (n & X & _). congruence. Qed.

Lemma fresh_mine s s' r q n f rs : inv s -> nth_error (s_heap s') r = Some (CBinding q n f rs None) -> length (s_heap s) <= r ->
  pending s' = pending s -> mine s' r.
Proof.
  intros I E L P. split; [do 4 eexists; exact E|]. rewrite P. intros X. apply (i_open _ _ I) in X. apply open_lt in X. lia.
Qed.

Lemma ctx_alloc s0 c s (Q : ref -> st -> Prop) : ctx s0 s -> good (s_heap s) c ->
  (forall r s', ctx s0 s' -> later None s s' -> (forall t, has t c = true -> is (s_heap s') t r) -> Q r s') -> safe (alloc c) s Q.
Proof.
  intros C G H. assert (C' := C). destruct C' as [I S]. apply safe_alloc; [exact I|exact G|]. intros r s' I' S' E L _ _.
  apply H; [eapply ctx_step; eassumption|apply later_step, S'|]. intros t T. exists c. auto.
Qed.
Lemma ctx_open s0 q n f s (Q : ref -> st -> Prop) : ctx s0 s ->
  (forall r s', ctx s0 s' -> later None s s' -> is (s_heap s') TBind r -> mine s' r -> length (s_heap s0) <= r -> length (s_heap s) <= r -> Q r s') ->
  safe (alloc (CBinding q n f None None)) s Q.
Proof.
  intros C H. assert (L0 := ctx_length _ _ C). assert (C' := C). destruct C' as [I S].
  apply safe_alloc; [exact I|split; discriminate|]. intros r s' I' S' E L P _.
  assert (M : mine s' r) by exact (fresh_mine s s' r _ _ _ _ I E L P).
  apply H; [eapply ctx_step; eassumption|apply later_step, S'|apply open_is, (proj1 M)|exact M|lia|exact L].
Qed.
Lemma ctx_new_var s0 s (Q : nat -> st -> Prop) : ctx s0 s ->
  (forall x s', ctx s0 s' -> later None s s' -> Q x s') -> safe new_var s Q.
Proof.
  intros C H. assert (C' := C). destruct C' as [I S]. apply safe_new_var; [exact I|]. intros x s' I' S' _ _.
  apply H; [eapply ctx_step; eassumption|apply later_step, S'].
Qed.
Lemma ctx_push_var s0 v b s (Q : nat -> st -> Prop) : ctx s0 s -> is (s_heap s) TBind b ->
  (forall x s', ctx s0 s' -> later None s s' -> Q x s') -> safe (push_var v b) s Q.
Proof.
  intros C B H. assert (C' := C). destruct C' as [I S]. apply safe_push_var; [exact I|exact B|]. intros x s' I' S' _ _.
  apply H; [eapply ctx_step; eassumption|apply later_step, S'].
Qed.
Lemma ctx_lookup s0 v s (Q : nat * option ref -> st -> Prop) : ctx s0 s ->
  (forall x o s', ctx s0 s' -> later None s s' -> (forall d, o = Some d -> is (s_heap s') TBind d) -> Q (x, o) s') -> safe (lookup_var v) s Q.
Proof.
  intros C H. assert (C' := C). destruct C' as [I S]. apply safe_lookup; [exact I|]. intros x o s' I' S' _ D.
  apply H; [eapply ctx_step; eassumption|apply later_step, S'|exact D].
Qed.
Lemma ctx_restriction s0 b r s (Q : unit -> st -> Prop) : ctx s0 s -> is (s_heap s) TBind b -> is (s_heap s) TStmt r ->
  (forall s', ctx s0 s' -> later None s s' -> Q tt s') -> safe (set_restriction b r) s Q.
Proof.
  intros C B R H. assert (C' := C). destruct C' as [I S]. apply safe_set_restriction; [exact I|exact B|exact R|]. intros s' I' S' _ _.
  apply H; [eapply ctx_step; eassumption|apply later_step, S'].
Qed.
Lemma ctx_quantifier s0 b q s (Q : unit -> st -> Prop) : ctx s0 s -> is (s_heap s) TBind b ->
  (forall s', ctx s0 s' -> later None s s' -> Q tt s') -> safe (set_quantifier b q) s Q.
Proof.
  intros C B H. assert (C' := C). destruct C' as [I S]. apply safe_set_quantifier; [exact I|exact B|]. intros s' I' S' _ _.
  apply H; [eapply ctx_step; eassumption|apply later_step, S'].
Qed.
Lemma ctx_focus s0 b s (Q : unit -> st -> Prop) : ctx s0 s -> is (s_heap s) TBind b ->
  (forall s', ctx s0 s' -> later None s s' -> Q tt s') -> safe (set_focus b) s Q.
Proof.
  intros C B H. assert (C' := C). destruct C' as [I S]. apply safe_set_focus; [exact I|exact B|]. intros s' I' S' _ _.
  apply H; [eapply ctx_step; eassumption|apply later_step, S'].
Qed.
Lemma closes_later b s s' : closes b s s' -> later (Some b) s s'.
Proof. intros C. split; [exact (c_grows _ _ _ C)|rewrite (c_length _ _ _ C); lia|]. intros x E. apply (c_mine _ _ _ C). congruence. Qed.
Lemma ctx_scope s0 b x s (Q : unit -> st -> Prop) : ctx s0 s -> mine s b -> length (s_heap s0) <= b -> is (s_heap s) TStmt x ->
  (forall s', ctx s0 s' -> later (Some b) s s' -> is (s_heap s') TStmt b -> Q tt s') -> safe (set_scope b x) s Q.
Proof.
  intros C M L X H. assert (C' := C). destruct C' as [I S]. apply safe_set_scope; [exact I|exact M|exact X|]. intros s' I' K B.
  apply H; [split; [exact I'|apply (c_step _ _ _ K); assumption]|apply closes_later, K|exact B].
Qed.
Definition yours (s0 s : st) (o : option ref) : Prop := forall b, o = Some b -> mine s b /\ length (s_heap s0) <= b.
Lemma ctx_bind vf s0 o x s (Q : ref -> st -> Prop) : ctx s0 s -> yours s0 s o -> is (s_heap s) TStmt x ->
  (forall y s', ctx s0 s' -> later o s s' -> is (s_heap s') TStmt y -> Q y s') -> safe (bind_scope vf o x) s Q.
Proof.
  intros C M X H. assert (C' := C). destruct C' as [I S]. destruct o as [b|].
  - destruct (M b eq_refl) as [Mb L]. apply safe_bind_scope; [exact I|exact Mb|exact X|]. intros s' I' K B.
    apply H; [split; [exact I'|apply (c_step _ _ _ K); assumption]|apply closes_later, K|exact B].
  - apply H; [exact C|apply later_refl|exact X].
Qed.
Lemma mine_pending s s' x b P Q' : s_heap s' = s_heap s -> pending s = P ++ Q' -> pending s' = P ++ b :: Q' -> x <> b -> mine s x -> mine s' x.
Proof.
  intros E1 E2 E3 N [O X]. split; [rewrite E1; exact O|]. rewrite E3, in_app_iff. rewrite E2, in_app_iff in X. cbn. intros [Y|[Y|Y]]; auto.
Qed.
Lemma ctx_the s0 b s (Q : unit -> st -> Prop) : ctx s0 s -> mine s b -> length (s_heap s0) <= b ->
  (forall s', ctx s0 s' -> later (Some b) s s' -> Q tt s') -> safe (add_the b) s Q.
Proof.
  intros [I S] M L H. assert (A := safe_add_the b s (fun _ s' => inv s' /\ step s0 s' /\ s_heap s' = s_heap s) I M).
  assert (X : safe (add_the b) s (fun _ s' => inv s' /\ step s0 s' /\ s_heap s' = s_heap s)).
  { apply A. intros s' I' E _ St. auto. }
  cbn in X. destruct X as (I' & S' & _). cbn. apply H; [split; assumption|]. split; cbn; [apply grows_refl|lia|].
  intros x N Mx. eapply (mine_pending s _ x b (s_the s) (concat (s_hi s))); [reflexivity|reflexivity| |congruence|exact Mx].
  unfold pending. cbn. rewrite <- app_assoc. reflexivity.
Qed.
Lemma ctx_hi_add s0 b s t r (Q : unit -> st -> Prop) : ctx s0 s -> mine s b -> length (s_heap s0) <= b -> s_hi s = t :: r ->
  (forall s', ctx s0 s' -> later (Some b) s s' -> Q tt s') -> safe (set_hi ((t ++ [b]) :: r)) s Q.
Proof.
  intros [I S] M L E H.
  assert (X : safe (set_hi ((t ++ [b]) :: r)) s (fun _ s' => inv s' /\ step s0 s')).
  { apply (safe_add_hi b t r s I M E). intros s' I' _ _ St. auto. }
  cbn in X. destruct X as (I' & S'). cbn. apply H; [split; assumption|]. split; cbn; [apply grows_refl|lia|].
  intros x N Mx. eapply (mine_pending s _ x b (s_the s ++ t) (concat r)); [reflexivity| | |congruence|exact Mx].
  - unfold pending. rewrite E. cbn. rewrite app_assoc. reflexivity.
  - unfold pending. cbn. rewrite <- !app_assoc. reflexivity.
Qed.

(** The stack of hoa. *)
Lemma ctx_set_hoa s0 l s (Q : unit -> st -> Prop) : ctx s0 s -> Forall (is (s_heap s) TBind) l ->
  (forall s', ctx s0 s' -> later None s s' -> Q tt s') -> safe (set_hoa l) s Q.
Proof.
  intros [I S] F H. cbn. apply H.
  - split; [destruct I; split; assumption|]. eapply step_trans; [exact S|]. split; cbn; [apply keeps_refl|exists []; rewrite app_nil_r; auto|apply hi_ext_refl].
  - split; cbn; [apply grows_refl|lia|intros x _ X; exact X].
Qed.
Lemma ctx_push_hoa s0 b s (Q : unit -> st -> Prop) : ctx s0 s -> is (s_heap s) TBind b ->
  (forall s', ctx s0 s' -> later None s s' -> Q tt s') -> safe (push_hoa b) s Q.
Proof.
  intros C B H. apply safe_bind. cbn. apply (ctx_set_hoa s0); [exact C|constructor; [exact B|exact (i_hoa _ _ (proj1 C))]|exact H].
Qed.
Lemma ctx_pop_hoa s0 s (Q : unit -> st -> Prop) : ctx s0 s -> (forall s', ctx s0 s' -> later None s s' -> Q tt s') -> safe pop_hoa s Q.
Proof.
  intros C H. apply safe_bind. cbn. apply (ctx_set_hoa s0); [exact C| |exact H]. assert (F := i_hoa _ _ (proj1 C)). destruct F; [constructor|assumption].
Qed.
Lemma ctx_get_binding s0 b s (Q : bnd -> st -> Prop) : ctx s0 s -> is (s_heap s) TBind b -> (forall x, Q x s) -> safe (get_binding b) s Q.
Proof. intros C B H. apply safe_get_binding; [exact B|]. auto. Qed.
Lemma ctx_lifted s0 k s (Q : option ref -> st -> Prop) : ctx s0 s -> (forall o, (forall b, o = Some b -> is (s_heap s) TBind b) -> Q o s) -> safe (lifted k) s Q.
Proof.
  intros [I _] H. unfold safe, lifted. apply H. intros b E. destruct (find _ (s_lifted s)) as [[x y]|] eqn:F; [|discriminate]. injection E as ->.
  apply find_some in F. assert (A := i_lifted _ _ I). rewrite Forall_forall in A. exact (A _ (proj1 F)).
Qed.
Lemma ctx_set_lifted s0 k b s (Q : unit -> st -> Prop) : ctx s0 s -> is (s_heap s) TBind b ->
  (forall s', ctx s0 s' -> later None s s' -> Q tt s') -> safe (set_lifted k b) s Q.
Proof.
  intros [I S] B H. cbn. apply H.
  - split; [destruct I; split; try assumption; cbn; constructor; assumption|].
    eapply step_trans; [exact S|]. split; cbn; [apply keeps_refl|exists []; rewrite app_nil_r; auto|apply hi_ext_refl].
  - split; cbn; [apply grows_refl|lia|intros x _ X; exact X].
Qed.

(** Restoring the variables in scope. *)
Lemma safe_with_vars {A} (m : Interp.M A) s (P : A -> heap -> Prop) : inv s ->
  safe m s (fun a s' => inv s' /\ step s s' /\ P a (s_heap s')) ->
  safe (with_vars m) s (fun a s' => inv s' /\ step s s' /\ P a (s_heap s')).
Proof.
  intros I H. unfold with_vars. apply safe_bind. cbn. apply safe_bind. eapply safe_weaken; [exact H|].
  intros a s' (I' & S & R). cbn. split; [|split; [|exact R]].
  - destruct I' as [I1 I2 I3 I4 I5 I6]. split; try assumption. cbn. eapply Forall_impl; [|exact (i_vars _ _ I)].
    intros x X. eapply is_step; eassumption.
  - eapply step_trans; [exact S|]. split; cbn; [apply keeps_refl|exists []; rewrite app_nil_r; auto|apply hi_ext_refl].
Qed.

(** ** Walks over the heap *)
Lemma is_cell h t r : is h t r -> exists c, nth_error h r = Some c.
Proof. intros (c & E & _). eauto. Qed.
Lemma good_below h c x : good h c -> In x (below c) -> exists y, nth_error h x = Some y.
Proof.
  assert (O : forall l, (forall a, In (Some a) l -> is h TArg a) -> In x (flat_map (@olist ref) l) -> exists y, nth_error h x = Some y).
  { intros l H I. apply in_flat_map in I. destruct I as ([a|] & I & J); [|contradiction]. destruct J as [<-|[]]. eapply is_cell, H, I. }
  destruct c as [q n f rs sc|k l r|p as_|n d f|as_|t f|nm|s|l r|p k]; cbn [good below].
  - intros [H1 H2] I. apply in_app_or in I. destruct rs as [a|], sc as [b|]; cbn in I; destruct I as [I|I]; try contradiction;
      destruct I as [<-|[]]; eapply is_cell; [apply H1|apply H2|apply H1|apply H2]; reflexivity.
  - intros [H1 H2] [<-|[<-|[]]]; eapply is_cell; eassumption.
  - intros [H1 H2] [<-|I]; [eapply is_cell; eassumption|]. eapply O; eassumption.
  - contradiction.
  - intros H I. eapply O; eassumption.
  - contradiction.
  - contradiction.
  - intros H [<-|[]]. eapply is_cell; eassumption.
  - intros [H1 H2] [<-|[<-|[]]]; eapply is_cell; eassumption.
  - intros H [<-|[]]. eapply is_cell; eassumption.
Qed.

Lemma visited_safe h : good_heap h -> forall fuel r c, nth_error h r = Some c ->
  match visited h fuel r with
  | Ok l => forall x, In x l -> exists y, nth_error h x = Some y
  | Panic _ => False
  | NoFuel => True
  end.
Proof.
  intros G fuel. induction fuel as [|f IH]; intros r c E; [exact Logic.I|]. cbn [visited]. rewrite E.
  assert (B : forall x, In x (below c) -> exists y, nth_error h x = Some y) by (intros x; apply good_below, (G _ _ E)).
  assert (L : forall l, (forall x, In x l -> exists y, nth_error h x = Some y) ->
    match flat_res (visited h f) l with
    | Ok l => forall x, In x l -> exists y, nth_error h x = Some y
    | Panic _ => False
    | NoFuel => True
    end).
  { induction l as [|x l IHl]; intros H; [intros y []|]. cbn [flat_res]. destruct (H x (or_introl eq_refl)) as [y Y].
    specialize (IH _ _ Y). destruct (visited h f x) as [a| |]; cbn; [|contradiction|exact Logic.I].
    specialize (IHl (fun z Z => H z (or_intror Z))). destruct (flat_res (visited h f) l) as [b| |]; cbn; [|contradiction|exact Logic.I].
    intros z Z. apply in_app_or in Z. destruct Z; auto. }
  specialize (L _ B). destruct (flat_res (visited h f) (below c)) as [l| |]; cbn; [|contradiction|exact Logic.I].
  intros x [<-|X]; eauto.
Qed.

Lemma free_scan_safe h l : good_heap h -> forall bs b, exists o, free_scan h l bs b = Ok o.
Proof.
  intros G. induction l as [|r l IH]; intros bs b; cbn [free_scan]; [eauto|].
  destruct (nth_error h r) as [c|] eqn:E; [|apply IH]. destruct c; try apply IH. destruct def as [d|]; [|apply IH].
  assert (D := G _ _ E). cbn in D. destruct (D d eq_refl) as (c & Ec & T). rewrite Ec. destruct c; try discriminate T. apply IH.
Qed.
Lemma ctx_free vf s0 t r s (Q : bool -> st -> Prop) : ctx s0 s -> is (s_heap s) t r -> (forall b, Q b s) -> safe (has_free_vars vf r) s Q.
Proof.
  intros [I _] (c & E & _) H. unfold safe, has_free_vars. assert (V := visited_safe _ (i_good _ _ I) vf _ _ E).
  destruct (visited (s_heap s) vf r) as [l| |]; cbn; [|contradiction|exact Logic.I].
  destruct (free_scan_safe _ l (i_good _ _ I) [] false) as [o O]. rewrite O. apply H.
Qed.

(** ** Building trees *)
Definition args_ok (h : heap) (a : args) : Prop := forall x p, In (x, p) a -> is h TArg x.
Fixpoint pcon_ok (h : heap) (p : pcon) : Prop :=
  match p with
  | PPred r => is h TPred r
  | PConn _ l r => pcon_ok h l /\ pcon_ok h r
  end.
Lemma args_grows h h' a : grows h h' -> args_ok h a -> args_ok h' a.
Proof. intros G H x p I. apply G, (H _ _ I). Qed.
Lemma pcon_grows h h' p : grows h h' -> pcon_ok h p -> pcon_ok h' p.
Proof. intros G. induction p as [r|c l IHl r IHr]; cbn; [apply G|]. intros []. auto. Qed.

Lemma later_is e s s' t r : later e s s' -> is (s_heap s) t r -> is (s_heap s') t r.
Proof. intros L. apply (l_grows _ _ _ L). Qed.
Lemma later_args e s s' a : later e s s' -> args_ok (s_heap s) a -> args_ok (s_heap s') a.
Proof. intros L. apply args_grows, (l_grows _ _ _ L). Qed.
Lemma later_pcon e s s' a : later e s s' -> pcon_ok (s_heap s) a -> pcon_ok (s_heap s') a.
Proof. intros L. apply pcon_grows, (l_grows _ _ _ L). Qed.
Lemma later_mine s s' x : later None s s' -> mine s x -> mine s' x.
Proof. intros L. apply (l_mine _ _ _ L). discriminate. Qed.
Lemma later_yours s0 s s' o : later None s s' -> yours s0 s o -> yours s0 s' o.
Proof. intros L Y b E. destruct (Y b E) as [M B]. split; [eapply later_mine; eassumption|exact B]. Qed.

(** Moving what is known to the present state. *)
Ltac move_to L :=
  match type of L with
  | later _ ?s ?s' =>
      repeat match goal with
        | H : is (s_heap s) _ _ |- _ => apply (later_is _ _ _ _ _ L) in H
        | H : args_ok (s_heap s) _ |- _ => apply (later_args _ _ _ _ L) in H
        | H : pcon_ok (s_heap s) _ |- _ => apply (later_pcon _ _ _ _ L) in H
        end;
      match type of L with
      | later None _ _ =>
          repeat match goal with
            | H : mine s _ |- _ => apply (later_mine _ _ _ L) in H
            | H : yours ?a s _ |- _ => apply (later_yours a _ _ _ L) in H
            end
      | _ => idtac
      end
  end.

Lemma ordered_in (a : args) l x : order_arguments a = Ok l -> In (Some x) l -> exists p, In (x, p) a.
Proof.
  unfold order_arguments.
  assert (R : forall n, In (Some x) (repeat None n) -> exists p, In (x, p) a).
  { intros n I. apply repeat_spec in I. discriminate. }
  assert (S1 : forall l p (y : ref), In (Some x) (set_nth p (Some y) l) -> y = x \/ In (Some x) l).
  { clear. induction l as [|z l IH]; intros p y I; [destruct p; contradiction|]. destruct p as [|p]; cbn in I.
    - destruct I as [I|I]; [left; congruence|right; right; exact I].
    - destruct I as [I|I]; [right; left; exact I|]. apply IH in I. destruct I; [left; assumption|right; right; assumption]. }
  assert (P1 : forall b l, In (Some x) (place_linked b l) -> (exists p, In (x, p) b) \/ In (Some x) l).
  { induction b as [|[y p] b IH]; intros l' I; [right; exact I|]. unfold place_linked in I. cbn [fold_left] in I.
    fold (place_linked b) in I. apply IH in I. destruct I as [(p' & I)|I]; [left; exists p'; right; exact I|]. cbn [fst snd] in I.
    destruct p as [|p]; [right; exact I|]. apply S1 in I. destruct I as [->|I]; [left; eexists; left; reflexivity|right; exact I]. }
  assert (N1 : forall l y l', next_empty l y = Ok l' -> In (Some x) l' -> y = x \/ In (Some x) l).
  { clear. induction l as [|z l IH]; intros y l' E I; [discriminate|]. cbn [next_empty] in E. destruct z as [z|].
    - destruct (next_empty l y) as [l2| |] eqn:E2; cbn in E; try discriminate. injection E as <-. destruct I as [I|I]; [right; left; exact I|].
      destruct (IH _ _ E2 I); [left; assumption|right; right; assumption].
    - injection E as <-. destruct I as [I|I]; [left; congruence|right; right; exact I]. }
  assert (P2 : forall b l l', place_unlinked b l = Ok l' -> In (Some x) l' -> (exists p, In (x, p) b) \/ In (Some x) l).
  { induction b as [|[y p] b IH]; intros l1 l2 E I; [injection E as <-; right; exact I|]. cbn [place_unlinked] in E. destruct p as [|p].
    - destruct (next_empty l1 y) as [l3| |] eqn:E3; cbn [bind] in E; try discriminate. destruct (IH _ _ E I) as [(p' & J)|J]; [left; exists p'; right; exact J|].
      destruct (N1 _ _ _ E3 J) as [->|K]; [left; eexists; left; reflexivity|right; exact K].
    - destruct (IH _ _ E I) as [(p' & J)|J]; [left; exists p'; right; exact J|right; exact J]. }
  intros E I. destruct (P2 _ _ _ E I) as [H|H]; [exact H|]. destruct (P1 _ _ H) as [H'|H']; [exact H'|]. eapply R, H'.
Qed.

Lemma ctx_distribute s0 p : forall a s (Q : ref -> st -> Prop), ctx s0 s -> pcon_ok (s_heap s) p -> args_ok (s_heap s) a ->
  (forall r s', ctx s0 s' -> later None s s' -> is (s_heap s') TStmt r -> Q r s') -> safe (distribute_predication p a) s Q.
Proof.
  induction p as [r|c l IHl r IHr]; intros a s Q C P A H; cbn [distribute_predication].
  - apply safe_bind, safe_lift. destruct (order_spec a) as (o & k & E & _). exists o. split; [exact E|].
    apply (ctx_alloc s0); [exact C| |].
    + split; [exact P|]. intros x I. destruct (ordered_in _ _ _ E I) as [q J]. exact (A _ _ J).
    + intros x s' C' L T. apply H; auto.
  - destruct P as [P1 P2]. apply safe_bind. apply IHl; [exact C|exact P1|exact A|]. intros x s1 C1 L1 X1.
    assert (P2' : pcon_ok (s_heap s1) r) by (eapply later_pcon; eassumption).
    assert (A' : args_ok (s_heap s1) a) by (eapply later_args; eassumption).
    apply safe_bind. apply IHr; [exact C1|exact P2'|exact A'|]. intros y s2 C2 L2 X2. move_to L2.
    apply (ctx_alloc s0); [exact C2|split; assumption|]. intros z s3 C3 L3 T.
    apply H; [exact C3| |apply T; reflexivity]. eapply later_trans; [exact L1|]. eapply later_trans; eassumption.
Qed.

Lemma ctx_serial_right s0 l r : forall s (Q : pcon -> st -> Prop), ctx s0 s -> is (s_heap s) TPred l -> pcon_ok (s_heap s) r ->
  (forall x s', ctx s0 s' -> later None s s' -> pcon_ok (s_heap s') x -> Q x s') -> safe (serial_right l r) s Q.
Proof.
  induction r as [r|c r1 IH1 r2 IH2]; intros s Q C L R H; cbn [serial_right].
  - apply safe_bind. apply (ctx_alloc s0); [exact C|split; assumption|]. intros x s' C' L' T. apply safe_ret, H; [exact C'|exact L'|apply T; reflexivity].
  - destruct R as [R1 R2]. apply safe_bind. apply IH1; [exact C|exact L|exact R1|]. intros x s1 C1 L1 X1. move_to L1.
    apply safe_bind. apply IH2; [exact C1|exact L|exact R2|]. intros y s2 C2 L2 X2. move_to L2. apply safe_ret, H; [exact C2| |split; assumption].
    eapply later_trans; eassumption.
Qed.
Lemma ctx_serial s0 l r : forall s (Q : pcon -> st -> Prop), ctx s0 s -> pcon_ok (s_heap s) l -> pcon_ok (s_heap s) r ->
  (forall x s', ctx s0 s' -> later None s s' -> pcon_ok (s_heap s') x -> Q x s') -> safe (serial_left l r) s Q.
Proof.
  induction l as [l|c l1 IH1 l2 IH2]; intros s Q C L R H; cbn [serial_left].
  - apply (ctx_serial_right s0); assumption.
  - destruct L as [L1 L2]. apply safe_bind. apply IH1; [exact C|exact L1|exact R|]. intros x s1 C1 K1 X1. move_to K1.
    apply safe_bind. apply IH2; [exact C1|exact L2|exact R|]. intros y s2 C2 K2 X2. move_to K2. apply safe_ret, H; [exact C2| |split; assumption].
    eapply later_trans; eassumption.
Qed.

(** A method called from another one. *)
Lemma nest {A} s0 (m : Interp.M A) s (P Q : A -> st -> Prop) : ctx s0 s ->
  safe m s (fun a s' => ctx s s' /\ P a s') ->
  (forall a s', ctx s0 s' -> later None s s' -> P a s' -> Q a s') -> safe m s Q.
Proof.
  intros C H K. eapply safe_weaken; [exact H|]. intros a s' [[I S] R]. apply K; [eapply ctx_step; eassumption|apply later_step, S|exact R].
Qed.

(** The tactics below carry out one operation of a method and move what is known on. *)
Ltac one_open b C B Mb F :=
  apply safe_bind; eapply ctx_open; [exact C|]; clear C;
  let s := fresh "s" in let L := fresh "L" in
  intros b s C L B Mb F _; move_to L; clear L.
Ltac one_alloc r C T :=
  apply safe_bind; eapply ctx_alloc; [exact C| |clear C;
  let s := fresh "s" in let L := fresh "L" in
  intros r s C L T; move_to L; clear L].
Ltac one_var n C :=
  apply safe_bind; eapply ctx_new_var; [exact C|]; clear C;
  let s := fresh "s" in let L := fresh "L" in
  intros n s C L; move_to L; clear L.

Lemma in_two {A} (P : A -> Prop) a b : P a -> P b -> forall x, In (Some x) [Some a; Some b] -> P x.
Proof. intros A1 B1 x [X|[X|[]]]; injection X as <-; assumption. Qed.
Lemma in_one {A} (P : A -> Prop) a : P a -> forall x, In (Some x) [Some a] -> P x.
Proof. intros A1 x [X|[]]. injection X as <-. assumption. Qed.
Lemma some_def (P : ref -> Prop) b : P b -> forall x, Some b = Some x -> P x.
Proof. intros B x X. injection X as <-. exact B. Qed.

Lemma lambda_safe p a s : inv s -> is (s_heap s) TPred p -> is (s_heap s) TArg a ->
  safe (make_lambda p a) s (fun r s' => ctx s s' /\ is (s_heap s') TPred r /\ is (s_heap s') TArg r).
Proof.
  intros I P A. assert (C := ctx_start _ I). unfold make_lambda.
  one_var n C. one_open b C B Mb F. one_alloc v C Tv; [exact (some_def (is _ TBind) _ B)|]. assert (V := Tv TArg eq_refl).
  one_alloc sc C Ts; [split; [exact P|exact (in_two (is _ TArg) _ _ V A)]|]. assert (S := Ts TStmt eq_refl).
  apply safe_bind. eapply ctx_scope; [exact C|exact Mb|exact F|exact S|]. intros s' C' _ S'.
  eapply ctx_alloc; [exact C'|exact S'|]. intros r s'' C'' _ T. auto.
Qed.

Lemma ctx_set_binding s0 b q n f s (Q : unit -> st -> Prop) : ctx s0 s -> mine s b ->
  (forall s', ctx s0 s' -> later None s s' -> Q tt s') -> safe (set_binding b (Bnd q n f None None)) s Q.
Proof.
  intros C [(q0 & n0 & f0 & rs0 & E) _] H. assert (C' := C). destruct C' as [I S]. unfold safe, set_binding, set. cbn [b_q b_n b_focus b_restr b_scope].
  assert (L : like (CBinding q0 n0 f0 rs0 None) (CBinding q n f None None)) by (split; reflexivity).
  assert (K : keeps (s_heap s) (set_nth b (CBinding q n f None None) (s_heap s))) by (eapply keeps_set; eassumption).
  apply H; [eapply ctx_step; [exact C| |apply step_heap, K]|apply later_step, step_heap, K].
  apply inv_heap; [exact I|exact K|]. eapply good_set; [exact E|intros t; apply like_has; exact L|exact (i_good _ _ I)|split; discriminate].
Qed.
