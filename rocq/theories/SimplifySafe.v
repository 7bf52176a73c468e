(** Simplifying a well-typed tree never panics and gives a well-typed tree; so Interpret
    never panics on supported discourses. *)

From Coq Require Import String NArith List Bool Arith Lia.
From Verif Require Import Base PegSyntax Ast AstSorts Logic LogicWords LogicSpec Interp Simplify OrderFacts SafeBase InterpSafe.
Import ListNotations.
Open Scope string_scope.
Open Scope list_scope.
Open Scope nat_scope.

(** ** The items of a discourse *)

Lemma bind_all_safe vf P l : forall x s, inv_ P s -> (forall b, In b l -> open (s_heap s) b /\ ~ In b P) -> NoDup l ->
  is (s_heap s) TStmt x ->
  safe (bind_all vf l (Some x)) s (fun o s' => exists y, o = Some y /\ inv_ P s' /\ is (s_heap s') TStmt y).
Proof.
  induction l as [|b l IH]; intros x s I O N X; cbn [bind_all].
  - apply safe_ret. eauto.
  - destruct (O b (or_introl eq_refl)) as [Ob Nb]. inversion N as [|? ? Nl Nd]; subst. apply safe_bind.
    unfold bind_scope. destruct vf as [|vf']; [exact Logic.I|]. cbn [bind_scope_fuel]. destruct Ob as (q & n & f & rs & E1).
    apply safe_bind, safe_get_binding; [eexists; split; [exact E1|reflexivity]|]. intros q' n' f' rs' sc' E'. rewrite E1 in E'. injection E' as <- <- <- <- <-.
    cbn [b_scope]. apply safe_bind. unfold set_scope. apply safe_bind, safe_get_binding; [eexists; split; [exact E1|reflexivity]|].
    intros q' n' f' rs' sc' E'. rewrite E1 in E'. injection E' as <- <- <- <- <-. unfold safe at 1, set_binding, Interp.set. cbn [b_q b_n b_focus b_restr b_scope].
    destruct (inv_close P s b q n f rs x I E1 Nb X) as (I2 & C & B). apply safe_ret.
    apply IH; [exact I2| |exact Nd|exact B]. intros y Y. destruct (O y (or_intror Y)) as [Oy Ny]. split; [|exact Ny].
    destruct Oy as (q2 & n2 & f2 & rs2 & E2). exists q2, n2, f2, rs2. cbn. rewrite set_nth_other; [exact E2|]. intros ->. contradiction.
Qed.

Definition item_ok (U : unicode) (n : node) : Prop :=
  among items n = true /\ (is_sentence n = true -> well_sorted n = true /\ supported U n = true).

Lemma item_kind n : among items n = true -> is_fragment n = true \/ is_sentence n = true.
Proof. unfold among. destruct n; try discriminate; try (destruct k; try discriminate); cbn; auto. Qed.
Lemma sentence_ok U n : item_ok U n -> is_sentence n = true -> ok U sentences n.
Proof. intros (A & B) S. destruct (B S) as [W X]. split; [|split; assumption]. destruct n; try discriminate S; try reflexivity. destruct k; try discriminate S. reflexivity. Qed.

Definition items_post (o : option ref) (s : st) : Prop :=
  inv s /\ s_hi s = [] /\ match o with None => s_the s = [] | Some x => is (s_heap s) TStmt x end.
Lemma all_items_safe U ol vf fuel l : (forall n, In n l -> item_ok U n) -> forall o s, items_post o s ->
  safe (all_items U ol vf fuel l o) s items_post.
Proof.
  induction l as [|n l IH]; intros H o s P; cbn [all_items]; [apply safe_ret; exact P|].
  assert (Hl : forall m, In m l -> item_ok U m) by (intros; apply H; right; assumption).
  assert (On := H n (or_introl eq_refl)). destruct (item_kind _ (proj1 On)) as [F|F].
  - rewrite F. apply IH; assumption.
  - destruct (is_fragment n); [apply IH; assumption|]. rewrite F. apply safe_bind. destruct P as (I & Hi & Po).
    eapply safe_weaken; [apply run_safe; [exact I|exact (sentence_ok _ _ On F)]|]. intros x s1 [C X]. cbn [post] in X.
    assert (H1 : s_hi s1 = []). { destruct C as [_ [_ _ X1]]. rewrite Hi in X1. exact X1. }
    destruct o as [z|].
    + apply (is_step _ _ _ _ (proj2 C)) in Po. apply safe_bind. eapply safe_alloc; [exact (proj1 C)|split; assumption|]. intros r s2 I2 S2 E2 _ _ H2.
      apply IH; [assumption|]. split; [exact I2|]. split; [congruence|]. eexists. split; [exact E2|reflexivity].
    + apply IH; [assumption|]. split; [exact (proj1 C)|]. split; [exact H1|exact X].
Qed.

Lemma inv_start : inv st0.
Proof. split; cbn; try constructor; try contradiction. intros r c E. destruct r; discriminate. Qed.
Lemma discourse_safe U ol vf fuel d : (forall n, In n d -> item_ok U n) ->
  safe (discourse U ol vf fuel d) st0 (fun o s => forall x, o = Some x -> good_heap (s_heap s) /\ is (s_heap s) TStmt x).
Proof.
  intros H. unfold discourse. apply safe_bind. eapply safe_weaken; [apply all_items_safe; [exact H|]|].
  - split; [exact inv_start|]. split; reflexivity.
  - intros o s (I & Hi & Po). apply safe_bind. unfold safe at 1, the_scope. destruct o as [x|].
    + assert (Pe : pending s = s_the s) by (unfold pending; rewrite Hi; apply app_nil_r).
      assert (J : inv_ [] s) by (destruct I; split; try assumption; [contradiction|constructor]).
      eapply safe_weaken; [apply (bind_all_safe vf [] (rev (s_the s)) x s J)|].
      * intros b B. apply in_rev in B. split; [|auto]. apply (i_open _ _ I). rewrite Pe. exact B.
      * apply NoDup_rev. rewrite <- Pe. exact (i_nodup _ _ I).
      * exact Po.
      * intros o s' (y & -> & I' & Y) z Z. injection Z as <-. split; [exact (i_good _ _ I')|exact Y].
    + rewrite Po. cbn [rev bind_all]. apply safe_ret. discriminate.
Qed.

(** ** addHoa *)

(** Cells keep their kind, and a binding its scope. *)
Definition same (c c' : cell) : Prop := kind c = kind c' /\ forall t, has t c = true -> has t c' = true.
Definition kept (h h' : heap) : Prop := forall r c, nth_error h r = Some c -> exists c', nth_error h' r = Some c' /\ same c c'.
Lemma kept_grows h h' : kept h h' -> grows h h'.
Proof. intros K t r (c & E & H). destruct (K _ _ E) as (c' & E' & _ & S). exists c'. auto. Qed.
Lemma kept_refl h : kept h h.
Proof. intros r c E. exists c. split; [exact E|split; auto]. Qed.
Lemma kept_trans h1 h2 h3 : kept h1 h2 -> kept h2 h3 -> kept h1 h3.
Proof.
  intros A B r c E. destruct (A _ _ E) as (c' & E' & K & S). destruct (B _ _ E') as (c'' & E'' & K' & S'). exists c''. split; [exact E''|]. split; [congruence|auto].
Qed.
Lemma kept_app h c : kept h (h ++ [c]).
Proof. intros r x E. exists x. split; [|split; auto]. rewrite nth_error_app1; [exact E|]. apply nth_error_Some. congruence. Qed.
Lemma kept_set h r c c' : nth_error h r = Some c -> same c c' -> kept h (set_nth r c' h).
Proof.
  intros E S x y Ey. destruct (Nat.eq_dec x r) as [->|N].
  - exists c'. split; [apply set_nth_same, nth_error_Some; congruence|]. congruence.
  - exists y. rewrite set_nth_other by auto. split; [exact Ey|split; auto].
Qed.
Definition hstep (h h' : heap) : Prop := good_heap h' /\ kept h h'.

(** Writing a cell of the same kind. *)
Lemma write_safe h0 h r c c' : good_heap h -> kept h0 h -> nth_error h0 r = Some c ->
  (forall x, kind x = kind c -> same x c') -> good h c' -> hstep h0 (set_nth r c' h) /\ kept h (set_nth r c' h).
Proof.
  intros G K E S Gc. destruct (K _ _ E) as (x & Ex & Kx & _). assert (Sx : same x c') by (apply S; congruence).
  assert (K' := kept_set _ _ _ _ Ex Sx). split; [|exact K']. split; [|eapply kept_trans; eassumption].
  eapply good_set; [exact Ex|exact (proj2 Sx)|exact G|exact Gc].
Qed.
Lemma same_connection k l r x : kind x = 1 -> same x (CConnection k l r).
Proof. destruct x; intros E; try discriminate E. split; [reflexivity|]. intros []; exact (fun H => H). Qed.
Lemma same_predication p l x : kind x = 2 -> same x (CPredication p l).
Proof. destruct x; intros E; try discriminate E. split; [reflexivity|]. intros []; exact (fun H => H). Qed.
Lemma same_plurality l x : kind x = 4 -> same x (CPlurality l).
Proof. destruct x; intros E; try discriminate E. split; [reflexivity|]. intros []; exact (fun H => H). Qed.
Lemma same_abstraction y x : kind x = 7 -> same x (CAbstraction y).
Proof. destruct x; intros E; try discriminate E. split; [reflexivity|]. intros []; exact (fun H => H). Qed.
Lemma same_serial l r x : kind x = 8 -> same x (CSerial l r).
Proof. destruct x; intros E; try discriminate E. split; [reflexivity|]. intros []; exact (fun H => H). Qed.
Lemma same_swap p k x : kind x = 9 -> same x (CSwap p k).
Proof. destruct x; intros E; try discriminate E. split; [reflexivity|]. intros []; exact (fun H => H). Qed.
Lemma same_binding q n f rs sc x : kind x = 0 -> same x (CBinding q n f rs (Some sc)).
Proof. destruct x; intros E; try discriminate E. split; [reflexivity|]. intros []; cbn; auto. Qed.
Lemma same_variable n d f x : kind x = 3 -> same x (CVariable n d f).
Proof. destruct x; intros E; try discriminate E. split; [reflexivity|]. intros []; exact (fun H => H). Qed.

Definition whole (h : heap) (r : ref) : Prop := is h TStmt r \/ is h TPred r \/ is h TArg r.
Lemma whole_kept h h' r : kept h h' -> whole h r -> whole h' r.
Proof. intros K [H|[H|H]]; [left|right; left|right; right]; apply (kept_grows _ _ K), H. Qed.
Lemma whole_cell h r : whole h r -> exists c, nth_error h r = Some c /\ (has TStmt c = true \/ has TPred c = true \/ has TArg c = true).
Proof. intros [(c & E & H)|[(c & E & H)|(c & E & H)]]; exists c; auto. Qed.

Lemma used_args_safe f l : forall h0 u s, good_heap (x_heap s) -> kept h0 (x_heap s) ->
  (forall a, In (Some a) l -> is (x_heap s) TArg a) ->
  (forall a s, good_heap (x_heap s) -> whole (x_heap s) a -> safe (f a) s (fun _ s' => hstep (x_heap s) (x_heap s'))) ->
  safe (used_args f l u) s (fun _ s' => hstep h0 (x_heap s')).
Proof.
  induction l as [|[a|] l IH]; intros h0 u s G G0 A F; cbn [used_args].
  - apply safe_ret. split; assumption.
  - apply safe_bind. eapply safe_weaken; [apply F; [exact G|right; right; apply A; left; reflexivity]|]. intros u' s' [G' G1].
    apply IH; [exact G'|eapply kept_trans; eassumption| |exact F]. intros x X. apply (kept_grows _ _ G1), A. right. exact X.
  - apply IH; auto. intros x X. apply A. right. exact X.
Qed.

Lemma add_hoa_safe fuel : forall r b s, good_heap (x_heap s) -> whole (x_heap s) r -> (forall x, b = Some x -> is (x_heap s) TBind x) ->
  safe (add_hoa fuel r b) s (fun _ s' => hstep (x_heap s) (x_heap s')).
Proof.
  induction fuel as [|f IH]; intros r b s G W B; [exact Logic.I|]. cbn [add_hoa]. destruct (whole_cell _ _ W) as (c & E & T).
  apply safe_bind. unfold safe at 1, Simplify.get. rewrite E. assert (Gc := G _ _ E).
  assert (IHn : forall x s, good_heap (x_heap s) -> whole (x_heap s) x -> safe (add_hoa f x None) s (fun _ s' => hstep (x_heap s) (x_heap s')))
    by (intros; apply IH; try assumption; discriminate).
  assert (Two : forall x y b', whole (x_heap s) x -> whole (x_heap s) y -> (forall z, b' = Some z -> is (x_heap s) TBind z) ->
    safe (do u <- add_hoa f x b' ; do v <- add_hoa f y b' ; ret (merge u v)) s (fun _ s' => hstep (x_heap s) (x_heap s'))).
  { intros x y b' X Y B'. apply safe_bind. eapply safe_weaken; [apply IH; assumption|]. intros u s1 [G1 W1].
    apply safe_bind. eapply safe_weaken; [apply IH; [exact G1|eapply whole_kept; eassumption|intros z Z; apply (kept_grows _ _ W1), B', Z]|].
    intros v s2 [G2 W2]. apply safe_ret. split; [exact G2|eapply kept_trans; eassumption]. }
  destruct c as [q n fo rs sc|k x y|p as_|n d fo|as_|t fo|nm|x|x y|p k]; cbn [good] in Gc.
  - destruct Gc as [G1 G2]. destruct sc as [sc|]; [|destruct T as [T|[T|T]]; discriminate T]. specialize (G2 sc eq_refl).
    apply safe_bind. eapply safe_weaken with (Q := fun _ s' => hstep (x_heap s) (x_heap s')).
    + destruct rs as [rs|]; [|apply safe_ret; split; [exact G|apply kept_refl]]. apply IH; [exact G|left; apply G1; reflexivity|].
      intros z Z. injection Z as <-. eexists. split; [exact E|reflexivity].
    + intros u s1 [Ga Wa]. apply safe_bind. eapply safe_weaken; [apply IHn; [exact Ga|left; apply (kept_grows _ _ Wa), G2]|]. intros v s2 [Gb Wb].
      apply safe_ret. split; [exact Gb|eapply kept_trans; eassumption].
  - destruct Gc as [G1 G2]. apply Two; [left; exact G1|left; exact G2|exact B].
  - destruct Gc as [G1 G2]. apply safe_bind. eapply safe_weaken; [apply IHn; [exact G|right; left; exact G1]|]. intros u s1 [Ga Wa].
    apply safe_bind. eapply safe_weaken; [apply (used_args_safe _ as_ (x_heap s) u s1 Ga Wa); [intros a I; apply (kept_grows _ _ Wa), G2, I|exact IHn]|].
    intros used s2 [Gb Wb]. assert (K : safe (ret used) s2 (fun _ s' => hstep (x_heap s) (x_heap s'))) by (apply safe_ret; split; assumption).
    destruct b as [bd|]; [|exact K]. destruct as_; [|exact K]. destruct (kept_grows _ _ Wb _ _ (B bd eq_refl)) as (c & Ec & Tc). apply safe_bind.
    unfold safe at 1, Simplify.get. rewrite Ec. destruct c; try discriminate Tc. destruct (existsb (Nat.eqb n) used); [exact K|].
    apply safe_bind. unfold safe at 1, Simplify.alloc. apply safe_bind. unfold safe at 1, Simplify.set. apply safe_ret. cbn [x_heap].
    assert (Gx : good_heap (x_heap s2 ++ [CVariable n (Some bd) false])).
    { apply good_app; [exact Gb|]. cbn. intros z Z. injection Z as <-. eexists. split; [exact Ec|reflexivity]. }
    assert (Wx := kept_app (x_heap s2) (CVariable n (Some bd) false)).
    eapply write_safe; [exact Gx|eapply kept_trans; eassumption|exact E|intros x; apply same_predication|].
    split; [apply (kept_grows _ _ Wx), (kept_grows _ _ Wb), G1|]. intros a [I|[]]. injection I as <-. eexists. split; [apply nth_app|reflexivity].
  - apply safe_ret. split; [exact G|apply kept_refl].
  - apply (used_args_safe _ as_ (x_heap s) [] s G (kept_refl _) Gc IHn).
  - apply safe_ret. split; [exact G|apply kept_refl].
  - apply safe_ret. split; [exact G|apply kept_refl].
  - apply IHn; [exact G|left; exact Gc].
  - destruct Gc as [G1 G2]. apply Two; [right; left; exact G1|right; left; exact G2|discriminate].
  - apply IHn; [exact G|right; left; exact Gc].
Qed.

(** ** simplifyStatement, simplifyArgument and simplifyPredicate *)

Definition sgood (s : sst) : Prop := good_heap (x_heap s) /\ forall n a, In (n, Some a) (x_sub s) -> is (x_heap s) TArg a.
Definition sstep (s s' : sst) : Prop := sgood s' /\ kept (x_heap s) (x_heap s').
Lemma sgood_heap s h : sgood s -> good_heap h -> kept (x_heap s) h -> sgood (SSt h (x_sub s)).
Proof. intros [_ A] G K. split; [exact G|]. intros n a I. apply (kept_grows _ _ K), (A _ _ I). Qed.
Lemma sstep_refl s : sgood s -> sstep s s.
Proof. intros G. split; [exact G|apply kept_refl]. Qed.
Lemma sstep_trans s1 s2 s3 : sstep s1 s2 -> sstep s2 s3 -> sstep s1 s3.
Proof. intros [_ A] [G B]. split; [exact G|eapply kept_trans; eassumption]. Qed.
Lemma sstep_is s s' t r : sstep s s' -> is (x_heap s) t r -> is (x_heap s') t r.
Proof. intros [_ K]. apply kept_grows, K. Qed.

Lemma set_safe s0 s r c c' (Q : unit -> sst -> Prop) : sstep s0 s -> nth_error (x_heap s0) r = Some c ->
  (forall x, kind x = kind c -> same x c') -> good (x_heap s) c' ->
  (forall s', sstep s0 s' -> sstep s s' -> nth_error (x_heap s') r = Some c' -> Q tt s') -> safe (Simplify.set r c') s Q.
Proof.
  intros [[G A] K] E S Gc H. unfold safe, Simplify.set. destruct (write_safe _ _ _ _ _ G K E S Gc) as [[G' K0] K'].
  assert (Sg : sgood (SSt (set_nth r c' (x_heap s)) (x_sub s))) by (apply sgood_heap; [split; assumption|exact G'|exact K']).
  apply H; [split; assumption|split; assumption|]. cbn. apply set_nth_same. destruct (K _ _ E) as (y & Ey & _). apply nth_error_Some. congruence.
Qed.
Lemma substitute_safe s n a (Q : unit -> sst -> Prop) : sgood s -> (forall x, a = Some x -> is (x_heap s) TArg x) ->
  (forall s', sstep s s' -> x_heap s' = x_heap s -> Q tt s') -> safe (substitute n a) s Q.
Proof.
  intros [G A] I H. unfold safe, substitute. apply H; [|reflexivity]. split; [|apply kept_refl]. split; [exact G|]. cbn. intros m x [X|X]; [injection X as _ ->; auto|exact (A _ _ X)].
Qed.

Lemma get_safe s r t (Q : cell -> sst -> Prop) : is (x_heap s) t r -> (forall c, nth_error (x_heap s) r = Some c -> has t c = true -> Q c s) -> safe (Simplify.get r) s Q.
Proof. intros (c & E & T) H. unfold safe, Simplify.get. rewrite E. auto. Qed.

Lemma sub_safe pv q rs s : sgood s -> (forall x, rs = Some x -> is (x_heap s) TStmt x) -> safe (sub pv q rs) s (fun _ s' => sstep s s').
Proof.
  intros G H. assert (K : forall b : bool, safe (ret b) s (fun _ s' => sstep s s')) by (intros b; apply safe_ret, sstep_refl, G).
  unfold sub. destruct rs as [p|]; [|apply K]. apply safe_bind. eapply get_safe; [apply H; reflexivity|]. intros c E T.
  destruct c; try apply K. destruct args as [|[a0|] [|[a1|] [|? ?]]]; try apply K.
  assert (Gc := proj1 G _ _ E). destruct Gc as [Gp Ga].
  assert (R : safe (do c <- get p0; match c with CPred name => if negb (name =? "=")%string then ret false else
                    do cl <- get a0 ;
                    do cr <- get a1 ;
                    do o <- match cl, cr with
                            | CVariable n _ _, _ => ret (Some (n, a1, cr))
                            | _, CVariable n _ _ => ret (Some (n, a0, cl))
                            | _, _ => ret None
                            end ;
                    match o with
                    | None => ret false
                    | Some (n, a, ca) =>
                        if existsb (Nat.eqb n) pv then ret false
                        else if is_constant ca then do _ <- substitute n (Some a) ; ret true
                        else ret false
                    end
     | _ => ret false end) s (fun _ s' => sstep s s')).
  { apply safe_bind. eapply get_safe; [exact Gp|]. intros c Ec Tc. destruct c; try apply K. destruct (negb (name =? "=")%string); [apply K|].
    assert (A0 := Ga a0 (or_introl eq_refl)). assert (A1 := Ga a1 (or_intror (or_introl eq_refl))).
    apply safe_bind. eapply get_safe; [exact A0|]. intros cl El _. apply safe_bind. eapply get_safe; [exact A1|]. intros cr Er _.
    apply safe_bind. eapply safe_weaken with (Q := fun o s' => s' = s /\ forall n a ca, o = Some (n, a, ca) -> is (x_heap s) TArg a).
    - assert (N : safe (ret None) s (fun (o : option (nat * ref * cell)) s' => s' = s /\ forall n a ca, o = Some (n, a, ca) -> is (x_heap s) TArg a)) by (apply safe_ret; split; [reflexivity|discriminate]).
      assert (S1 : forall n c a, is (x_heap s) TArg a -> safe (ret (Some (n, a, c))) s (fun (o : option (nat * ref * cell)) s' => s' = s /\ forall n a ca, o = Some (n, a, ca) -> is (x_heap s) TArg a)).
      { intros n c a Ia. apply safe_ret. split; [reflexivity|]. intros n' a' c' X. injection X as _ <- _. exact Ia. }
      destruct cl; try (destruct cr; try exact N); apply S1; assumption.
    - intros o s' [-> Ho]. destruct o as [[[n a] ca]|]; [|apply K]. destruct (existsb (Nat.eqb n) pv); [apply K|]. destruct (is_constant ca); [|apply K].
      apply safe_bind. eapply substitute_safe; [exact G|intros x X; injection X as <-; eapply Ho; reflexivity|]. intros s' S _. apply safe_ret. exact S. }
  destruct q; try apply K; exact R.
Qed.

Lemma lambdas_bind h : good_heap h -> forall fuel r n, is h TStmt r -> lambdas fuel h r = Ok n ->
  forall args s, x_heap s = h -> sgood s -> n <= length args -> (forall a, In (Some a) args -> is h TArg a) ->
  safe (bind_args n args r) s (fun x s' => sstep s s' /\ is (x_heap s') TStmt x).
Proof.
  intros G fuel. induction fuel as [|f IH]; intros r n R E args s Hs Sg L A; [discriminate|]. cbn [lambdas] in E.
  destruct n as [|n]; [cbn [bind_args]; apply safe_ret; split; [apply sstep_refl, Sg|rewrite Hs; exact R]|].
  destruct R as (c & Ec & Tc). rewrite Ec in E. destruct c; try discriminate E. destruct q; try discriminate E. destruct restriction; try discriminate E.
  destruct scope as [sc|]; [|discriminate Tc]. destruct (lambdas f h sc) as [m| |] eqn:Em; try discriminate E. injection E as <-.
  destruct args as [|a args]; [cbn in L; lia|]. cbn [bind_args]. apply safe_bind. unfold safe at 1, Simplify.get. rewrite Hs, Ec.
  apply safe_bind. eapply substitute_safe; [exact Sg|intros x ->; rewrite Hs; apply A; left; reflexivity|]. intros s' St Hh.
  assert (Gc := G _ _ Ec). destruct Gc as [_ Gs]. specialize (Gs sc eq_refl).
  eapply safe_weaken; [apply (IH sc m Gs Em args s'); [congruence|exact (proj1 St)|cbn in L; lia|intros x X; apply A; right; exact X]|].
  intros x s2 [St2 X]. split; [eapply sstep_trans; eassumption|exact X].
Qed.
Lemma lambdas_total h : forall fuel r, match lambdas fuel h r with Panic _ => False | _ => True end.
Proof.
  induction fuel as [|f IH]; intros r; [exact Logic.I|]. cbn [lambdas]. destruct (nth_error h r) as [[]|]; try exact Logic.I.
  destruct q; try exact Logic.I. destruct restriction; try exact Logic.I. destruct scope as [s|]; [|exact Logic.I]. specialize (IH s). destruct (lambdas f h s); auto.
Qed.

Definition opt_is (t : ty) (o : option ref) (s : sst) : Prop := forall x, o = Some x -> is (x_heap s) t x.
Lemma map_args_safe f l : forall s0 s, sstep s0 s -> (forall a, In (Some a) l -> is (x_heap s) TArg a) ->
  (forall a s, sgood s -> is (x_heap s) TArg a -> safe (f a) s (fun o s' => sstep s s' /\ opt_is TArg o s')) ->
  safe (map_args f l) s (fun l' s' => sstep s0 s' /\ forall a, In (Some a) l' -> is (x_heap s') TArg a).
Proof.
  induction l as [|[a|] l IH]; intros s0 s S A F; cbn [map_args].
  - apply safe_ret. split; [exact S|contradiction].
  - apply safe_bind. eapply safe_weaken; [apply F; [exact (proj1 S)|apply A; left; reflexivity]|]. intros o s1 [S1 O].
    apply safe_bind. eapply safe_weaken; [apply (IH s1 s1); [apply sstep_refl, (proj1 S1)| |exact F]|].
    + intros x X. apply (sstep_is _ _ _ _ S1), A. right. exact X.
    + intros l' s2 [S2 L]. apply safe_ret. split; [eapply sstep_trans; [exact S|eapply sstep_trans; eassumption]|].
      intros x [->|X]; [apply (sstep_is _ _ _ _ S2), O; reflexivity|apply L, X].
  - apply safe_bind. eapply safe_weaken; [apply (IH s0 s S); [intros x X; apply A; right; exact X|exact F]|].
    intros l' s2 [S2 L]. apply safe_ret. split; [exact S2|]. intros x [X|X]; [discriminate|apply L, X].
Qed.
Lemma flat_args_safe f l : forall s0 s, sstep s0 s -> (forall a, In (Some a) l -> is (x_heap s) TArg a) ->
  (forall a s, sgood s -> is (x_heap s) TArg a -> safe (f a) s (fun o s' => sstep s s' /\ opt_is TArg o s')) ->
  safe (flat_args f l) s (fun l' s' => sstep s0 s' /\ forall a, In (Some a) l' -> is (x_heap s') TArg a).
Proof.
  induction l as [|[a|] l IH]; intros s0 s S A F; cbn [flat_args].
  - apply safe_ret. split; [exact S|contradiction].
  - apply safe_bind. eapply safe_weaken; [apply F; [exact (proj1 S)|apply A; left; reflexivity]|]. intros o s1 [S1 O].
    apply safe_bind. eapply safe_weaken with (Q := fun xs s' => s' = s1 /\ forall a, In (Some a) xs -> is (x_heap s1) TArg a).
    + destruct o as [x|]; [|apply safe_ret; split; [reflexivity|intros a' [X|[]]; discriminate]].
      specialize (O x eq_refl). apply safe_bind. eapply get_safe; [exact O|]. intros c Ec Tc.
      assert (K : safe (ret [Some x]) s1 (fun xs s' => s' = s1 /\ forall a, In (Some a) xs -> is (x_heap s1) TArg a)).
      { apply safe_ret. split; [reflexivity|]. intros a' [X|[]]. injection X as <-. exact O. }
      destruct c; try exact K. apply safe_ret. split; [reflexivity|]. exact (proj1 (proj1 S1) _ _ Ec).
    + intros xs s1' [-> Xs]. apply safe_bind. eapply safe_weaken; [apply (IH s1 s1); [apply sstep_refl, (proj1 S1)| |exact F]|].
      * intros x X. apply (sstep_is _ _ _ _ S1), A. right. exact X.
      * intros l' s2 [S2 L]. apply safe_ret. split; [eapply sstep_trans; [exact S|eapply sstep_trans; eassumption]|].
        intros x X. apply in_app_or in X. destruct X as [X|X]; [apply (sstep_is _ _ _ _ S2), Xs, X|apply L, X].
  - apply IH; [exact S|intros x X; apply A; right; exact X|exact F].
Qed.

Definition role_ty (k : role) : ty := match k with RStatement => TStmt | RArgument => TArg | RPredicate => TPred end.
Definition result (k : role) (o : option ref) (s : sst) : Prop :=
  match k with RArgument => opt_is TArg o s | _ => exists x, o = Some x /\ is (x_heap s) (role_ty k) x end.

Lemma in_set {A} (x : A) p y l : In x (set_nth p y l) -> x = y \/ In x l.
Proof.
  revert p. induction l as [|z l IH]; intros p I; [destruct p; contradiction|]. destruct p as [|p]; cbn in I.
  - destruct I as [I|I]; [left; congruence|right; right; exact I].
  - destruct I as [I|I]; [right; left; exact I|]. apply IH in I. destruct I; [left; assumption|right; right; assumption].
Qed.
Lemma in_exchange {A} (x : A) p l : In (Some x) (exchange p l) -> In (Some x) l.
Proof.
  unfold exchange. assert (N : forall i, nth i l None = Some x -> In (Some x) l).
  { intros i E. destruct (Nat.lt_ge_cases i (length l)) as [L|L]; [rewrite <- E; apply nth_In, L|rewrite nth_overflow in E by exact L; discriminate]. }
  intros I. apply in_set in I. destruct I as [I|I]; [eapply N; symmetry; exact I|]. apply in_set in I. destruct I as [I|I]; [eapply N; symmetry; exact I|exact I].
Qed.
Lemma in_pad {A} (x : A) n l : In (Some x) (pad n l) -> In (Some x) l.
Proof. unfold pad. intros I. apply in_app_or in I. destruct I as [I|I]; [exact I|]. apply repeat_spec in I. discriminate. Qed.

Lemma simplify_safe pv fuel : forall k r s, sgood s -> is (x_heap s) (role_ty k) r ->
  safe (simplify pv fuel k r) s (fun o s' => sstep s s' /\ result k o s').
Proof.
  induction fuel as [|f IH]; intros k r s G R; [exact Logic.I|]. cbn [simplify]. cbv zeta.
  assert (Node : forall k' x s1, (k' = RStatement \/ k' = RPredicate) -> sgood s1 -> is (x_heap s1) (role_ty k') x ->
    safe (do o <- simplify pv f k' x ; match o with Some y => ret y | None => crash end) s1
      (fun y s' => sstep s1 s' /\ is (x_heap s') (role_ty k') y)).
  { intros k' x s1 Hk G1 X. apply safe_bind. eapply safe_weaken; [apply IH; eassumption|]. intros o s2 [S2 Ro].
    assert (E : exists y, o = Some y /\ is (x_heap s2) (role_ty k') y) by (destruct Hk as [-> | ->]; exact Ro). destruct E as (y & -> & Y). apply safe_ret. auto. }
  assert (Arg : forall a s, sgood s -> is (x_heap s) TArg a -> safe (simplify pv f RArgument a) s (fun o s' => sstep s s' /\ opt_is TArg o s')).
  { intros a s1 G1 A1. apply (IH RArgument a s1 G1 A1). }
  apply safe_bind. eapply get_safe; [exact R|]. intros c E T. assert (Gc := proj1 G _ _ E).
  assert (S0 := sstep_refl _ G).
  assert (Self : forall k' s', sstep s s' -> has (role_ty k') c = true -> is (x_heap s') (role_ty k') r).
  { intros k' s' S' Tc. apply (sstep_is _ _ _ _ S'). exists c. auto. }
  destruct k; cbn [role_ty] in *; destruct c as [q n fo rs sc|con x y|p as_|n d fo|as_|t fo|nm|x|x y|p pos]; try discriminate T; cbn [good] in Gc.
  - destruct sc as [sc|]; [|discriminate T]. destruct Gc as [G1 G2]. specialize (G2 sc eq_refl). apply safe_bind.
    eapply safe_weaken with (Q := fun rs' s' => sstep s s' /\ opt_is TStmt rs' s').
    { destruct rs as [rs|]; [|apply safe_ret; split; [exact S0|discriminate]]. apply safe_bind.
      eapply safe_weaken; [apply (Node RStatement); [left; reflexivity|exact G|apply G1; reflexivity]|]. intros y s1 [S1 Y]. apply safe_ret.
      split; [exact S1|]. intros z Z. injection Z as <-. exact Y. }
    intros rs' s1 [S1 O1]. apply safe_bind. eapply set_safe; [exact S1|exact E|intros z; apply same_binding| |].
    { split; [exact O1|]. intros z Z. injection Z as <-. apply (sstep_is _ _ _ _ S1), G2. }
    intros s2 S2 S12 E2. apply safe_bind. eapply safe_weaken; [apply sub_safe; [exact (proj1 S2)|intros z Z; apply (sstep_is _ _ _ _ S12), O1, Z]|].
    intros b s3 S3. assert (S03 := sstep_trans _ _ _ S2 S3). assert (O3 : opt_is TStmt rs' s3) by (intros z Z; apply (sstep_is _ _ _ _ S3), (sstep_is _ _ _ _ S12), O1, Z).
    assert (Sc := sstep_is _ _ _ _ S03 G2). destruct b.
    + eapply safe_weaken; [apply (IH RStatement sc s3 (proj1 S3) Sc)|]. intros o s4 [S4 R4]. split; [exact (sstep_trans _ _ _ S03 S4)|exact R4].
    + apply safe_bind. eapply safe_weaken; [apply (Node RStatement sc s3); [left; reflexivity|exact (proj1 S3)|exact Sc]|]. intros y s4 [S4 Y].
      apply safe_bind. eapply set_safe; [eapply sstep_trans; [exact S03|exact S4]|exact E|intros z; apply same_binding| |].
      { split; [intros z Z; apply (sstep_is _ _ _ _ S4), O3, Z|]. intros z Z. injection Z as <-. exact Y. }
      intros s5 S5 _ _. apply safe_ret. split; [exact S5|]. exists r. split; [reflexivity|]. apply (Self RStatement); [exact S5|reflexivity].
  - destruct Gc as [G1 G2]. apply safe_bind. eapply safe_weaken; [apply (Node RStatement x s); auto|]. intros x' s1 [S1 X].
    apply safe_bind. eapply safe_weaken; [apply (Node RStatement y s1); [auto|exact (proj1 S1)|apply (sstep_is _ _ _ _ S1), G2]|]. intros y' s2 [S2 Y].
    apply safe_bind. eapply set_safe; [exact (sstep_trans _ _ _ S1 S2)|exact E|intros z; apply same_connection|split; [apply (sstep_is _ _ _ _ S2), X|exact Y]|].
    intros s3 S3 _ _. apply safe_ret. split; [exact S3|]. exists r. split; [reflexivity|]. apply (Self RStatement); [exact S3|reflexivity].
  - destruct Gc as [G1 G2]. apply safe_bind. eapply safe_weaken; [apply (map_args_safe _ as_ s s S0 G2 Arg)|]. intros args' s1 [S1 A1].
    assert (P1 := sstep_is _ _ _ _ S1 G1). apply safe_bind. eapply set_safe; [exact S1|exact E|intros z; apply same_predication|split; [exact P1|exact A1]|].
    intros s2 S2 S12 _. assert (P2 := sstep_is _ _ _ _ S12 P1). assert (A2 : forall a, In (Some a) args' -> is (x_heap s2) TArg a) by (intros a I; apply (sstep_is _ _ _ _ S12), A1, I).
    assert (Rest : safe (do p' <- (do o <- simplify pv f RPredicate p ; match o with Some y => ret y | None => crash end) ;
                         do _ <- Simplify.set r (CPredication p' args') ; ret (Some r)) s2 (fun o s' => sstep s s' /\ result RStatement o s')).
    { apply safe_bind. eapply safe_weaken; [apply (Node RPredicate p s2); [auto|exact (proj1 S2)|exact P2]|]. intros p' s3 [S3 P3].
      apply safe_bind. eapply set_safe; [exact (sstep_trans _ _ _ S2 S3)|exact E|intros z; apply same_predication| |].
      { split; [exact P3|]. intros a I. apply (sstep_is _ _ _ _ S3), A2, I. }
      intros s4 S4 _ _. apply safe_ret. split; [exact S4|]. exists r. split; [reflexivity|]. apply (Self RStatement); [exact S4|reflexivity]. }
    apply safe_bind. eapply get_safe; [exact P2|]. intros pc Epc Tpc. destruct pc; try exact Rest.
    + assert (Gs := proj1 (proj1 S2) _ _ Epc). cbn in Gs. apply safe_bind. unfold safe at 1. assert (Lt := lambdas_total (x_heap s2) (S f) st).
      destruct (lambdas (S f) (x_heap s2) st) as [nl| |] eqn:El; [|contradiction|exact Logic.I]. cbn [bind].
      destruct ((nl =? 0) || negb (length (filter (fun a => match a with Some _ => true | None => false end) args') =? nl)) eqn:Eb; [exact Rest|].
      apply orb_false_iff in Eb. destruct Eb as [_ Eb]. apply negb_false_iff, Nat.eqb_eq in Eb.
      apply safe_bind. eapply safe_weaken; [apply (lambdas_bind (x_heap s2) (proj1 (proj1 S2)) (S f) st nl Gs El args' s2 eq_refl (proj1 S2)); [|exact A2]|].
      { rewrite <- Eb. clear. induction args' as [|[a|] l IHl]; cbn; lia. }
      intros x s3 [S3 X]. eapply safe_weaken; [apply (IH RStatement x s3 (proj1 S3) X)|]. intros o s4 [S4 R4].
      split; [exact (sstep_trans _ _ _ S2 (sstep_trans _ _ _ S3 S4))|exact R4].
    + assert (Gs := proj1 (proj1 S2) _ _ Epc). cbn in Gs. apply safe_bind. eapply set_safe; [exact S2|exact E|intros z; apply same_predication| |].
      { split; [exact Gs|]. intros a I. apply A2. eapply in_pad, in_exchange, I. }
      intros s3 S3 _ _. eapply safe_weaken; [apply (IH RStatement r s3 (proj1 S3)); apply (Self RStatement); [exact S3|reflexivity]|]. intros o s4 [S4 R4].
      split; [exact (sstep_trans _ _ _ S3 S4)|exact R4].
  - apply safe_bind. unfold safe at 1, substituted. destruct (find (fun p => fst p =? n) (x_sub s)) as [[m a]|] eqn:F.
    + apply safe_ret. split; [exact S0|]. intros z ->. apply find_some in F. exact (proj2 G _ _ (proj1 F)).
    + apply safe_ret. split; [exact S0|]. intros z Z. injection Z as <-. exact R.
  - apply safe_bind. eapply safe_weaken; [apply (flat_args_safe _ as_ s s S0 Gc Arg)|]. intros args' s1 [S1 A1].
    apply safe_bind. eapply set_safe; [exact S1|exact E|intros z; apply same_plurality|exact A1|]. intros s2 S2 _ _. apply safe_ret.
    split; [exact S2|]. intros z Z. injection Z as <-. apply (Self RArgument); [exact S2|reflexivity].
  - apply safe_ret. split; [exact S0|]. intros z Z. injection Z as <-. exact R.
  - apply safe_bind. eapply safe_weaken; [apply (Node RStatement x s); auto|]. intros y s1 [S1 Y].
    apply safe_bind. eapply set_safe; [exact S1|exact E|intros z; apply same_abstraction|exact Y|]. intros s2 S2 _ _. apply safe_ret.
    split; [exact S2|]. intros z Z. injection Z as <-. apply (Self RArgument); [exact S2|reflexivity].
  - apply safe_ret. split; [exact S0|]. exists r. auto.
  - apply safe_ret. split; [exact S0|]. exists r. auto.
  - apply safe_bind. eapply safe_weaken; [apply (Node RStatement x s); auto|]. intros y s1 [S1 Y].
    apply safe_bind. eapply set_safe; [exact S1|exact E|intros z; apply same_abstraction|exact Y|]. intros s2 S2 _ _. apply safe_ret.
    split; [exact S2|]. exists r. split; [reflexivity|]. apply (Self RPredicate); [exact S2|reflexivity].
  - destruct Gc as [G1 G2]. apply safe_bind. eapply safe_weaken; [apply (Node RPredicate x s); auto|]. intros x' s1 [S1 X].
    apply safe_bind. eapply safe_weaken; [apply (Node RPredicate y s1); [auto|exact (proj1 S1)|apply (sstep_is _ _ _ _ S1), G2]|]. intros y' s2 [S2 Y].
    apply safe_bind. eapply set_safe; [exact (sstep_trans _ _ _ S1 S2)|exact E|intros z; apply same_serial|split; [apply (sstep_is _ _ _ _ S2), X|exact Y]|].
    intros s3 S3 _ _. apply safe_ret. split; [exact S3|]. exists r. split; [reflexivity|]. apply (Self RPredicate); [exact S3|reflexivity].
  - apply safe_bind. eapply safe_weaken; [apply (Node RPredicate p s); auto|]. intros y s1 [S1 Y].
    apply safe_bind. eapply set_safe; [exact S1|exact E|intros z; apply same_swap|exact Y|]. intros s2 S2 _ _. apply safe_ret.
    split; [exact S2|]. exists r. split; [reflexivity|]. apply (Self RPredicate); [exact S2|reflexivity].
Qed.

(** ** sequenceVarNums and Interpret *)

Lemma renumber_safe l : forall i h, good_heap h -> exists h', renumber l i h = Ok h' /\ good_heap h' /\ kept h h'.
Proof.
  induction l as [|r l IH]; intros i h G; cbn [renumber]; [eexists; split; [reflexivity|split; [exact G|apply kept_refl]]|].
  assert (Go : forall c c' j, nth_error h r = Some c -> same c c' -> good h c' ->
    exists h', renumber l j (set_nth r c' h) = Ok h' /\ good_heap h' /\ kept h h').
  { intros c c' j E S Gc. destruct (IH j (set_nth r c' h)) as (h' & E' & G' & K').
    - eapply good_set; [exact E|exact (proj2 S)|exact G|exact Gc].
    - exists h'. split; [exact E'|]. split; [exact G'|]. eapply kept_trans; [eapply kept_set; eassumption|exact K']. }
  destruct (nth_error h r) as [c|] eqn:E; [|apply IH, G]. assert (Gc := G _ _ E).
  destruct c as [q n fo rs sc| | |n d fo| | | | | | ]; try (apply IH, G).
  - eapply Go; [reflexivity|split; [reflexivity|intros []; exact (fun H => H)]|exact Gc].
  - destruct d as [d|].
    + cbn in Gc. destruct (Gc d eq_refl) as (c & Ec & Tc). rewrite Ec. destruct c; try discriminate Tc.
      eapply Go; [reflexivity|split; [reflexivity|intros []; exact (fun H => H)]|exact Gc].
    + eapply Go; [reflexivity|split; [reflexivity|intros []; exact (fun H => H)]|exact Gc].
Qed.

Theorem interpret_safe U ol fuel d : (forall n, In n d -> item_ok U n) ->
  match interpret U ol fuel d with
  | Ok (Some (r, h)) => good_heap h /\ is h TStmt r
  | Ok None | NoFuel => True
  | Panic _ => False
  end.
Proof.
  intros H. unfold interpret. assert (D := discourse_safe U ol fuel fuel d H). unfold safe in D.
  destruct (discourse U ol fuel fuel d st0) as [[[r|] s]| |]; cbn [bind]; try exact Logic.I; [|contradiction].
  destruct (D r eq_refl) as [G R]. clear D. unfold simplify_statement.
  assert (A := add_hoa_safe fuel r None (SSt (s_heap s) []) G (or_introl R) ltac:(discriminate)). unfold safe in A.
  destruct (add_hoa fuel r None (SSt (s_heap s) [])) as [[u s1]| |]; cbn [bind]; [|contradiction|exact Logic.I]. destruct A as [G1 K1]. cbn [snd x_heap] in *.
  assert (R1 := kept_grows _ _ K1 _ _ R). destruct R1 as (c1 & E1 & T1).
  assert (V := visited_safe _ G1 fuel _ _ E1). unfold pred_vars. destruct (visited (x_heap s1) fuel r) as [l| |]; cbn [bind]; [|contradiction|exact Logic.I].
  set (pv := flat_map (pred_var (x_heap s1)) l).
  assert (S1 : sgood (SSt (x_heap s1) [])) by (split; [exact G1|contradiction]).
  assert (Ss := simplify_safe pv fuel RStatement r (SSt (x_heap s1) []) S1 (ex_intro _ c1 (conj E1 T1))). unfold safe in Ss.
  destruct (simplify pv fuel RStatement r (SSt (x_heap s1) [])) as [[o s2]| |]; cbn [bind]; [|contradiction|exact Logic.I].
  destruct Ss as [[[G2 _] _] (r' & -> & R')]. cbn [role_ty] in R'. unfold sequence_var_nums. assert (R2 := R'). destruct R2 as (c2 & E2 & T2).
  assert (V2 := visited_safe _ G2 fuel _ _ E2). destruct (visited (x_heap s2) fuel r') as [l2| |]; cbn [bind]; [|contradiction|exact Logic.I].
  destruct (renumber_safe l2 0 (x_heap s2) G2) as (h' & Eh & Gh & Kh). rewrite Eh. cbn [bind]. split; [exact Gh|]. apply (kept_grows _ _ Kh), R'.
Qed.
