(** The interpretation of first-order sentences ends. *)

From Coq Require Import String NArith List Bool Arith Lia.
From Verif Require Import Base PegSyntax Ast AstSorts Logic LogicWords LogicSpec ScopeSpec Interp OrderFacts SeqFacts TermFacts ScopeFacts ScopeInterp ScopeRun.
From Verif Require SafeBase LogicFuel.
Import ListNotations.
Open Scope string_scope.
Open Scope list_scope.
Open Scope nat_scope.

(** ** With enough fuel *)

(** [m] is given the bound for walks over the heap and the fuel. *)
Definition ends {A} (m : nat -> nat -> Interp.M A) (s : st) : Prop :=
  exists f0 r, r <> NoFuel /\ forall v f, f0 <= v -> f0 <= f -> m v f s = r.
Definition yields {A} (m : nat -> nat -> Interp.M A) (s : st) (a : A) (s' : st) : Prop :=
  exists f0, forall v f, f0 <= v -> f0 <= f -> m v f s = Ok (a, s').

Lemma ends_bind {A B} (m : nat -> nat -> Interp.M A) (k : nat -> nat -> A -> Interp.M B) s :
  ends m s -> (forall a s', yields m s a s' -> ends (fun v f => k v f a) s') -> ends (fun v f => mbind (m v f) (k v f)) s.
Proof.
  intros (f0 & r & N & E) K. unfold mbind. destruct r as [[a s']| |]; [|exists f0, (Panic p)|congruence].
  - destruct (K a s') as (f1 & r1 & N1 & E1); [exists f0; exact E|]. exists (f0 + f1), r1. split; [exact N1|].
    intros v f V F. rewrite E by lia. apply E1; lia.
  - split; [discriminate|]. intros v f V F. rewrite E by lia. reflexivity.
Qed.
Lemma ends_const {A} (m : Interp.M A) s : m s <> NoFuel -> ends (fun _ _ => m) s.
Proof. intros N. exists 0, (m s). auto. Qed.
Lemma yields_const {A} (m : Interp.M A) s a s' : yields (fun _ _ => m) s a s' -> m s = Ok (a, s').
Proof. intros (f0 & E). exact (E f0 f0 (le_n _) (le_n _)). Qed.
Lemma yields_some {A} (m : nat -> nat -> Interp.M A) s a s' : yields m s a s' -> exists v f, m v f s = Ok (a, s').
Proof. intros (f0 & E). exists f0, f0. apply E; lia. Qed.
Lemma ends_ok {A} (m : nat -> nat -> Interp.M A) s a s' : yields m s a s' -> ends m s.
Proof. intros (f0 & E). exists f0, (Ok (a, s')). split; [discriminate|exact E]. Qed.
Lemma yields_fun {A} (m : nat -> nat -> Interp.M A) s a s' b s'' : yields m s a s' -> yields m s b s'' -> a = b /\ s' = s''.
Proof. intros (f0 & E) (f1 & F). specialize (E (f0 + f1) (f0 + f1)). specialize (F (f0 + f1) (f0 + f1)). rewrite E in F by lia. specialize (F ltac:(lia) ltac:(lia)). injection F as -> ->. auto. Qed.

(** Steps without a bound. *)
Definition total {A} (m : Interp.M A) : Prop := forall s, m s <> NoFuel.
Lemma total_bind {A B} (m : Interp.M A) (k : A -> Interp.M B) : total m -> (forall a, total (k a)) -> total (mbind m k).
Proof. intros H K s. unfold mbind. specialize (H s). destruct (m s) as [[a s']| |]; [apply K|discriminate|congruence]. Qed.
Lemma total_ret {A} (a : A) : total (ret a). Proof. discriminate. Qed.
Lemma total_crash {A} : total (@crash st A). Proof. discriminate. Qed.
Lemma total_panic {A} s : total (@panic st A s). Proof. discriminate. Qed.
Lemma total_alloc c : total (alloc c). Proof. discriminate. Qed.
Lemma total_set r c : total (set r c). Proof. discriminate. Qed.
Lemma total_get r : total (get r).
Proof. intros s. unfold get. destruct (nth_error _ _); discriminate. Qed.
Lemma total_get_binding r : total (get_binding r).
Proof. apply total_bind; [apply total_get|]. intros []; try apply total_crash. apply total_ret. Qed.
Lemma total_set_binding r b : total (set_binding r b). Proof. discriminate. Qed.
Lemma total_set_restriction r x : total (set_restriction r x). Proof. apply total_bind; [apply total_get_binding|]. discriminate. Qed.
Lemma total_set_scope r x : total (set_scope r x). Proof. apply total_bind; [apply total_get_binding|]. discriminate. Qed.
Lemma total_set_quantifier r x : total (set_quantifier r x). Proof. apply total_bind; [apply total_get_binding|]. discriminate. Qed.
Lemma total_set_focus r : total (set_focus r). Proof. apply total_bind; [apply total_get_binding|]. discriminate. Qed.
Lemma total_assert l n : total (assert l n). Proof. intros s. unfold assert. destruct (among l n); discriminate. Qed.
Lemma total_new_binding q f : total (new_binding q f). Proof. discriminate. Qed.
Lemma total_lookup v : total (lookup_var v).
Proof. intros s. unfold lookup_var. destruct (find _ _) as [[]|]; [|discriminate]. apply total_bind; [apply total_get_binding|]. discriminate. Qed.
Lemma total_lift {A} (r : res A) : r <> NoFuel -> total (@lift st A r).
Proof. intros N s. unfold lift. destruct r; [discriminate|discriminate|congruence]. Qed.
Lemma connector_total U w : connector U w <> NoFuel.
Proof. unfold connector. repeat match goal with |- context [if ?b then _ else _] => destruct b end; discriminate. Qed.
Lemma quantifier_total U w : quantifier U w <> NoFuel.
Proof. unfold quantifier. destruct w; repeat match goal with |- context [if ?b then _ else _] => destruct b end; discriminate. Qed.
Lemma go_pos_total U w : go_pos U w <> NoFuel.
Proof. unfold go_pos. repeat match goal with |- context [if ?b then _ else _] => destruct b end; discriminate. Qed.
Lemma next_empty_total {A} (l : list (option A)) x : next_empty l x <> NoFuel.
Proof. induction l as [|[y|] l IH]; cbn; try discriminate. destruct (next_empty l x); cbn; congruence. Qed.
Lemma place_total {A} (a : list (A * nat)) : forall l, place_unlinked a l <> NoFuel.
Proof.
  induction a as [|[x [|p]] a IH]; intros l; cbn; try discriminate; [|apply IH].
  pose proof (next_empty_total l x). destruct (next_empty l x); cbn; [apply IH|discriminate|congruence].
Qed.
Lemma order_total {A} (a : list (A * nat)) : order_arguments a <> NoFuel.
Proof. apply place_total. Qed.
Lemma distribute_total a : forall p, total (distribute_predication p a).
Proof.
  induction p as [r|c l IHl r IHr]; cbn [distribute_predication].
  - apply total_bind; [apply total_lift, order_total|]. intros; apply total_alloc.
  - apply total_bind; [exact IHl|]. intros x. apply total_bind; [exact IHr|]. intros; apply total_alloc.
Qed.
Lemma serial_right_total l : forall r, total (serial_right l r).
Proof.
  induction r as [r|c r1 IH1 r2 IH2]; cbn [serial_right]; [discriminate|].
  apply total_bind; [exact IH1|]. intros x. apply total_bind; [exact IH2|]. discriminate.
Qed.
Lemma serial_left_total r : forall l, total (serial_left l r).
Proof.
  induction l as [l|c l1 IH1 l2 IH2]; cbn [serial_left]; [apply serial_right_total|].
  apply total_bind; [exact IH1|]. intros x. apply total_bind; [exact IH2|]. discriminate.
Qed.

Lemma lift_same {A} (r : res A) (s : st) a s' : lift r s = Ok (a, s') -> s' = s.
Proof. unfold lift. destruct r; try discriminate. intros E. injection E as _ <-. reflexivity. Qed.
Lemma ends_total {A} (m : Interp.M A) s : total m -> ends (fun _ _ => m) s.
Proof. intros T. apply ends_const, T. Qed.
Lemma ends_vars {A} (m : nat -> nat -> Interp.M A) s : ends m s -> ends (fun v f => with_vars (m v f)) s.
Proof.
  intros E. unfold with_vars. eapply (ends_bind (fun _ _ => var_scope)); [apply ends_const; discriminate|]. intros vs s0 Y. apply yields_const in Y. injection Y as <- <-.
  apply ends_bind; [exact E|]. intros a s' _. apply ends_const. discriminate.
Qed.

(** ** Walks over the heap *)

Lemma flat_total {A B} (f : A -> res (list B)) l : (forall x, In x l -> f x <> NoFuel) -> flat_res f l <> NoFuel.
Proof.
  induction l as [|a l IH]; intros N; cbn [flat_res]; [discriminate|]. assert (Na := N a (or_introl eq_refl)).
  destruct (f a); cbn [bind]; try congruence. assert (Nl : flat_res f l <> NoFuel) by (apply IH; intros; apply N; right; assumption).
  destruct (flat_res f l); cbn [bind]; congruence.
Qed.
Lemma visited_total h rk : ranked rk h -> forall f r, rk r < f -> visited h f r <> NoFuel.
Proof.
  intros R. induction f as [|f IH]; intros r L; [lia|]. cbn [visited]. destruct (nth_error h r) as [c|] eqn:E; [|discriminate].
  assert (N : flat_res (visited h f) (below c) <> NoFuel).
  { apply flat_total. intros x I. apply IH. assert (rk x < rk r) by (apply R; exists c; auto). lia. }
  destruct (flat_res _ _); cbn [bind]; congruence.
Qed.
Lemma scan_total h : forall l bs b, free_scan h l bs b <> NoFuel.
Proof.
  induction l as [|r l IH]; intros bs b; cbn [free_scan]; [discriminate|]. destruct (nth_error h r) as [[]|]; try apply IH.
  destruct def as [d|]; [|apply IH]. destruct (nth_error h d) as [[]|]; try discriminate. apply IH.
Qed.
Lemma has_free_ends s b : good s -> ends (fun v _ => has_free_vars v b) s.
Proof.
  intros G. destruct (w_rank _ (g_wf _ _ _ _ G)) as (rk & R). set (f0 := S (rk b)).
  exists f0, (has_free_vars f0 b s). unfold has_free_vars. assert (N := visited_total _ _ R f0 b (le_n _)). split.
  - destruct (visited (s_heap s) f0 b) as [l| |]; cbn [bind]; try congruence. assert (K := scan_total (s_heap s) l [] false).
    destruct (free_scan _ _ _ _); cbn [bind]; congruence.
  - intros v f V _. destruct (LogicFuel.le_visited (s_heap s) f0 v b V) as [X|X]; [contradiction|]. rewrite <- X. reflexivity.
Qed.

(** ** The size of a node *)

Fixpoint weight (n : node) : nat :=
  match n with
  | NSentence _ st _ => weight st + 2
  | NPrenex ts _ | NTerms ts => list_sum (map weight ts)
  | NPrenexStmt p st => weight p + weight st + 2
  | NPredication p ts _ => weight p + 1 + match ts with None => 0 | Some l => list_sum (map weight l) + 3 end
  | NSerial l r => weight l + weight r + 1
  | NLinked _ a => weight a + 1
  | NPredArg _ _ p rel => weight p + match rel with None => 0 | Some x => weight x end + 1
  | NPredRel p => weight p + 2
  | NCoP _ _ _ _ l r => weight l + weight r + 1
  | NLU _ _ st => weight st + 2
  | _ => 1
  end.
Definition weights (l : list node) : nat := list_sum (map weight l).
Lemma weights_cons n l : weights (n :: l) = weight n + weights l. Proof. reflexivity. Qed.
Lemma weights_app l m : weights (l ++ m) = weights l + weights m.
Proof. unfold weights. rewrite map_app, list_sum_app. reflexivity. Qed.

Section Ends.
Variables (U : unicode) (ol : list (N * N)).
Notation fo := (first_order U ol).
Let R {A} (c : call A) : nat -> nat -> Interp.M A := fun v f => run U ol v f A c.

Lemma ends_run {A} (c : call A) s : ends (fun v f => body U ol v (run U ol v f) c) s -> ends (R c) s.
Proof.
  intros (f0 & r & N & E). exists (S f0), r. split; [exact N|]. intros v [|f] V F; [lia|]. unfold R. cbn [run]. apply E; lia.
Qed.

(** The terms that prenexStatement leaves behind. *)
Lemma terms_left : forall f v a n bi ts s x ts' s', run U ol v f _ (KPrenex a n bi ts) s = Ok (x, ts', s') -> forallb fo ts = true ->
  forallb fo ts' = true /\ weights ts' <= weights ts /\ weights (tl ts') <= weights (tl ts).
Proof.
  induction f as [|f IH]; intros v a n bi ts s x ts' s' H Ft; [discriminate|]. cbn [run body] in H. unfold prenex_statement in H.
  apply with_vars_inv in H. destruct H as (s1 & H & ->). destruct ts as [|t rest].
  { minv H. minv H. injection H as <- <-. auto. }
  cbn [forallb] in Ft. apply andb_prop in Ft. destruct Ft as [Ft Fr].
  assert (Same : forall a s y r' s2, run U ol v f _ (KPrenex a n bi rest) s = Ok (y, r', s2) -> forallb fo (t :: r') = true /\ weights (t :: r') <= weights (t :: rest) /\ weights r' <= weights rest).
  { intros a0 s0 y r' s2 K. destruct (IH _ _ _ _ _ _ _ _ _ K Fr) as (A & B & _). cbn [forallb]. rewrite Ft, A, !weights_cons. repeat split; lia. }
  assert (Two : forall c1 c2 l r a s y t1 s2 z t2 s3, weight c2 < weight t -> fo c1 = true -> fo c2 = true ->
    l = c1 :: rest -> r = c2 :: tl t1 ->
    run U ol v f _ (KPrenex a n bi l) s = Ok (y, t1, s2) -> run U ol v f _ (KPrenex a n bi r) s2 = Ok (z, t2, s3) ->
    forallb fo t2 = true /\ weights t2 <= weights (t :: rest) /\ weights (tl t2) <= weights rest).
  { intros c1 c2 l r a0 s0 y t1 s2 z t2 s3 Hw F1 F2 -> -> K1 K2.
    destruct (IH _ _ _ _ _ _ _ _ _ K1) as (A1 & B1 & C1); [cbn [forallb]; rewrite F1, Fr; reflexivity|]. cbn [tl] in C1.
    destruct (IH _ _ _ _ _ _ _ _ _ K2) as (A2 & B2 & C2); [cbn [forallb]; rewrite F2; destruct t1; [reflexivity|]; cbn [forallb tl] in *; apply andb_prop in A1; apply A1|].
    cbn [tl] in C2. rewrite !weights_cons in *. repeat split; [exact A2|lia|lia]. }
  destruct t; try discriminate.
  - unfold argument_case in H. destruct t; try discriminate.
    + minv H. minv H. minv H. minv H. minv H. injection H as <- <-. eapply Same, E1.
    + destruct k; try discriminate. cbn [first_order] in Ft. apply andb_prop in Ft. destruct Ft as [Ft Ft2]. apply andb_prop in Ft. destruct Ft as [_ Ft1].
      destruct (has_text U ru "roi"); [minv H; minv H; minv H; minv H; minv H; injection H as <- <-; eapply Same; eassumption|].
      repeat minv H. injection H as <- <-. apply assert_ok in E, E0. destruct E as [-> ->], E0 as [-> ->].
      eapply (Two (NLinked go t1) (NLinked go t2)); [cbn [weight]; lia|exact Ft1|exact Ft2|reflexivity|reflexivity|eassumption|eassumption].
  - minv H. minv H. minv H. minv H. minv H. injection H as <- <-. eapply Same, E1.
  - destruct k; try discriminate.
    + destruct t1; try discriminate. destruct t2; try discriminate. repeat minv H. injection H as <- <-. cbn [forallb]. rewrite Ft, Fr. auto.
    + cbn [first_order] in Ft. apply andb_prop in Ft. destruct Ft as [Ft Ft2]. apply andb_prop in Ft. destruct Ft as [_ Ft1].
      destruct (has_text U ru "roi"); [minv H; minv H; minv H; minv H; injection H as <- <-; eapply Same; eassumption|].
      repeat minv H. injection H as <- <-. apply assert_ok in E, E0. destruct E as [-> ->], E0 as [-> ->].
      eapply (Two t1 t2); [cbn [weight]; lia|exact Ft1|exact Ft2|reflexivity|reflexivity|eassumption|eassumption].
Qed.

Definition All : ref -> Prop := fun _ => True.
Lemma env_all s : env s All. Proof. intros v b _. exact I. Qed.
Lemma hoa_all s : hoa_in s All. Proof. intros d _. exact I. Qed.
Lemma rel_all (bo : option ref) s : match bo with Some b => All b | None => hoa_in s All end.
Proof. destruct bo; [exact I|apply hoa_all]. Qed.
Local Hint Resolve env_all hoa_all : core.

Record hyps (N : nat) : Prop := Hyps {
  h_sent : forall n s, weight n < N -> fo n = true -> good s -> ends (R (KSentence n)) s;
  h_sub : forall n s, 1 + weight n < N -> fo n = true -> good s -> ends (R (KSubordinate n)) s;
  h_stmt : forall a n s, weight n < N -> fo n = true -> good s -> args_in s All a -> ends (R (KStatement a n)) s;
  h_pren : forall a n bi ts s, 1 + weight n + weights ts < N -> fo n = true -> forallb fo ts = true -> good s -> args_in s All a ->
    ends (R (KPrenex a n bi ts)) s;
  h_pred : forall n s, weight n < N -> fo n = true -> good s -> ends (R (KPredicate n)) s;
  h_arg : forall f q p rel s, weight (NPredArg f q p rel) < N -> fo (NPredArg f q p rel) = true -> good s -> ends (R (KPredArg f q p rel)) s;
  h_rel : forall bo n s, weight n < N -> fo n = true -> good s -> ends (R (KRelative bo n)) s }.

(** What a call that ends leaves behind. *)
Lemma y_sent n s x s' : yields (R (KSentence n)) s x s' -> fo n = true -> good s -> made s s' All x /\ s_vars s' = s_vars s.
Proof. intros Y F G. apply yields_some in Y. destruct Y as (v & f & H). eapply (p_sent _ _ _ (run_specs U ol v f)); eauto. Qed.
Lemma y_sub n s x s' : yields (R (KSubordinate n)) s x s' -> fo n = true -> good s -> made s s' All x /\ s_vars s' = s_vars s.
Proof. intros Y F G. apply yields_some in Y. destruct Y as (v & f & H). eapply (p_sub _ _ _ (run_specs U ol v f)); eauto. Qed.
Lemma y_stmt a n s x s' : yields (R (KStatement a n)) s x s' -> fo n = true -> good s -> args_in s All a -> made s s' All x /\ s_vars s' = s_vars s.
Proof. intros Y F G A. apply yields_some in Y. destruct Y as (v & f & H). eapply (p_stmt _ _ _ (run_specs U ol v f)); eauto. Qed.
Lemma y_pren a n bi ts s x ts' s' : yields (R (KPrenex a n bi ts)) s (x, ts') s' -> fo n = true -> forallb fo ts = true -> good s -> args_in s All a ->
  made s s' All x /\ s_vars s' = s_vars s /\ forallb fo ts' = true /\ weights (tl ts') <= weights (tl ts).
Proof.
  intros Y F Ft G A. apply yields_some in Y. destruct Y as (v & f & H). destruct (terms_left _ _ _ _ _ _ _ _ _ _ H Ft) as (K1 & _ & K2).
  destruct (p_pren _ _ _ (run_specs U ol v f) _ _ _ _ _ _ _ _ All H) as (M & V & _); eauto.
Qed.
Lemma y_pred n s p s' : yields (R (KPredicate n)) s p s' -> fo n = true -> good s -> pmade s s' All p.
Proof. intros Y F G. apply yields_some in Y. destruct Y as (v & f & H). eapply (p_pred _ _ _ (run_specs U ol v f)); eauto. Qed.
Lemma y_arg f q p rel s bo x s' : yields (R (KPredArg f q p rel)) s (bo, x) s' -> fo (NPredArg f q p rel) = true -> good s -> argd s s' All bo x.
Proof. intros Y F G. apply yields_some in Y. destruct Y as (v & f' & H). eapply (p_arg _ _ _ (run_specs U ol v f')); eauto. Qed.
Lemma y_rel bo n s x s' : yields (R (KRelative bo n)) s x s' -> fo n = true -> good s -> made s s' All x /\ s_vars s' = s_vars s.
Proof. intros Y F G. apply yields_some in Y. destruct Y as (v & f & H). eapply (p_rel _ _ _ (run_specs U ol v f)); eauto. apply rel_all. Qed.

Section Step.
Variable N0 : nat.
Hypothesis IH : hyps N0.

Ltac andb := repeat match goal with H : (_ && _)%bool = true |- _ => apply andb_prop in H; destruct H end.
Ltac tot := apply ends_total; first [apply total_alloc|apply total_ret|apply total_panic|apply total_crash|apply total_assert|
  apply total_lift; first [apply connector_total|apply quantifier_total|apply go_pos_total]|apply total_new_binding|apply total_lookup|
  apply total_get_binding|apply total_set_restriction|apply total_set_scope|apply total_set_quantifier|apply total_set_focus|apply total_set_binding|
  apply distribute_total|apply serial_left_total|discriminate].
(** One step that needs no fuel. *)
Ltac easy_step H := eapply (ends_bind (fun _ _ => _)); [tot|]; let a := fresh "a" in let s := fresh "s" in intros a s H; apply yields_const in H; cbv beta iota.

Lemma sentence_ends n s : weight n < S N0 -> fo n = true -> good s -> ends (fun v f => do_sentence U (run U ol v f) n) s.
Proof.
  intros L Fo G. destruct n; try discriminate; cbn [do_sentence first_order weight] in *; try (tot; fail).
  - apply (h_sub _ IH); [lia|assumption..].
  - destruct k; try discriminate; try (tot; fail). destruct (negb _); [tot|]. andb.
    easy_step E0. apply assert_ok in E0. destruct E0 as [-> ->].
    eapply ends_bind; [apply (h_sent _ IH); [lia|assumption..]|]. intros x s1 Y. apply y_sent in Y; [|assumption..]. destruct Y as (M & _).
    easy_step E0. apply assert_ok in E0. destruct E0 as [-> ->].
    eapply ends_bind; [apply (h_sent _ IH); [lia|assumption|exact (m_good _ _ _ _ M)]|]. intros y s2 _. tot.
Qed.

Lemma subordinate_ends n s : weight n < N0 -> fo n = true -> good s ->
  ends (fun v f => subordinate v (run U ol v f _ (KStatement [] n))) s.
Proof.
  intros L Fo G. unfold subordinate. easy_step E. injection E as <- <-. easy_step E. injection E as <- <-.
  eapply ends_bind; [apply (h_stmt _ IH); [exact L|exact Fo|exact G|intros ? ? []]|]. intros x s1 Y.
  apply y_stmt in Y; [|exact Fo|exact G|intros ? ? []]. destruct Y as (M & _).
  easy_step E. injection E as <- <-. easy_step E. injection E as <- <-.
  assert (Hi := e_hi _ _ _ _ _ _ _ _ (m_ext _ _ _ _ M)). cbn [s_hi] in Hi. rewrite Hi. cbn [hd rev bind_his].
  tot.
Qed.

Lemma predication_ends p a s : weight p < N0 -> fo p = true -> good s -> ends (fun v f => predication (run U ol v f) p a) s.
Proof. intros L F G. unfold predication. eapply ends_bind; [apply (h_pred _ IH); assumption|]. intros c s1 _. tot. Qed.

Lemma statement_ends a n s : weight n < S N0 -> fo n = true -> good s -> args_in s All a -> ends (fun v f => do_statement U (run U ol v f) a n) s.
Proof.
  intros L Fo G A. unfold do_statement. apply ends_vars. destruct n; try discriminate; cbn [first_order weight] in *; andb; try (tot; fail).
  - destruct n1; try discriminate; try (tot; fail). cbn [first_order weight] in *. eapply ends_bind; [apply (h_pren _ IH); try assumption; unfold weights; lia|]. intros [x ts'] s1 _. tot.
  - destruct ts as [ts|]; [|apply predication_ends; [lia|assumption..]].
    apply (h_stmt _ IH); [cbn [weight]; lia|cbn [first_order]; rewrite H0, H; reflexivity|assumption..].
  - destruct k; try discriminate; try (tot; fail). easy_step E. apply lift_same in E. subst.
    easy_step E. apply assert_ok in E. destruct E as [-> ->].
    eapply ends_bind; [apply (h_stmt _ IH); [lia|assumption..]|]. intros x s1 Y. apply y_stmt in Y; [|assumption..]. destruct Y as (M & _).
    easy_step E. apply assert_ok in E. destruct E as [-> ->].
    eapply ends_bind; [apply (h_stmt _ IH); [lia|assumption|exact (m_good _ _ _ _ M)|eapply args_ext; [exact A|exact G|exact (m_ext _ _ _ _ M)]]|].
    intros y s2 _. tot.
Qed.

Lemma predicate_ends n s : weight n < S N0 -> fo n = true -> good s -> ends (fun v f => do_predicate U ol v (run U ol v f) n) s.
Proof.
  intros L Fo G. destruct n; try discriminate; cbn [first_order weight] in *; cbn [do_predicate]; try (tot; fail).
  - andb. easy_step E. apply assert_ok in E. destruct E as [-> ->].
    eapply ends_bind; [apply (h_pred _ IH); [lia|assumption..]|]. intros x s1 Y. apply y_pred in Y; [|assumption..]. destruct Y as (G1 & _).
    easy_step E. apply assert_ok in E. destruct E as [-> ->].
    eapply ends_bind; [apply (h_pred _ IH); [lia|assumption..]|]. intros y s2 _. tot.
  - destruct (is_variable U ol (NWordPredicate w)) as [v|].
    + easy_step E. destruct a. tot.
    + destruct (is_hoa U (NWordPredicate w)); [discriminate|]. tot.
  - destruct k; try discriminate; try (tot; fail). andb. easy_step E. apply lift_same in E. subst.
    easy_step E. apply assert_ok in E. destruct E as [-> ->].
    eapply ends_bind; [apply (h_pred _ IH); [lia|assumption..]|]. intros x s1 Y. apply y_pred in Y; [|assumption..]. destruct Y as (G1 & _).
    easy_step E. apply assert_ok in E. destruct E as [-> ->].
    eapply ends_bind; [apply (h_pred _ IH); [lia|assumption..]|]. intros y s2 _. tot.
  - destruct k; try discriminate; tot.
Qed.

Lemma relative_ends bo n s : weight n < S N0 -> fo n = true -> good s -> ends (fun v f => relative_clause U (run U ol v f) bo n) s.
Proof.
  intros L Fo G. unfold relative_clause. apply ends_vars.
  eapply (ends_bind (fun _ _ => _)); [destruct bo; tot|]. intros u s1 Y. apply yields_const in Y.
  assert (G1 : good s1).
  { destruct bo; [unfold push_hoa in Y; minv Y; injection E as <- <-; injection Y as <- <-; exact G|apply ret_ok in Y; destruct Y as [_ <-]; exact G]. }
  apply ends_bind; [|intros x s2 _; apply ends_const; destruct bo; discriminate]. clear Y.
  destruct n; try discriminate; cbn [first_order weight] in *; try (tot; fail).
  - apply (h_sub _ IH); [lia|assumption..].
  - destruct k; try discriminate; try (tot; fail). andb. easy_step E. apply lift_same in E. subst.
    easy_step E. apply assert_ok in E. destruct E as [-> ->].
    eapply ends_bind; [apply (h_rel _ IH); [lia|assumption..]|]. intros x s2 Y. apply y_rel in Y; [|assumption..]. destruct Y as (M & _).
    easy_step E. apply assert_ok in E. destruct E as [-> ->].
    eapply ends_bind; [apply (h_rel _ IH); [lia|assumption|exact (m_good _ _ _ _ M)]|]. intros y s3 _. tot.
  - destruct k; try discriminate; try (tot; fail). apply (h_sub _ IH); [lia|assumption..].
Qed.

Lemma maybe_rel_ends b rel s (k : ref -> Interp.M unit) : match rel with None => 0 | Some n => weight n end < N0 ->
  match rel with None => true | Some n => fo n end = true -> good s -> (forall r, total (k r)) ->
  ends (fun v f => match rel with Some n => do r <- run U ol v f _ (KRelative (Some b) n) ; k r | None => ret tt end) s.
Proof.
  intros L Fr G K. destruct rel as [n|]; [|tot]. eapply ends_bind; [apply (h_rel _ IH); assumption|]. intros r s1 _. apply ends_total, K.
Qed.

Definition rel_weight (rel : option node) : nat := match rel with None => 0 | Some n => weight n end.
Definition rel_fo (rel : option node) : bool := match rel with None => true | Some n => fo n end.

Lemma var_ends v0 q rel s : rel_weight rel < N0 -> match q with None => true | Some w => negb (has_text U w "ke") end = true ->
  rel_fo rel = true -> good s -> ends (fun v f => var_argument U (run U ol v f) v0 q rel) s.
Proof.
  intros L Fq Fr G. unfold var_argument. destruct q as [w|].
  - easy_step E. unfold lift in E. destruct (quantifier U (Some w)) as [q0| |] eqn:Q; try discriminate. injection E as <- <-.
    assert (Nq : q0 <> QThe) by (intros ->; apply quantifier_the in Q; rewrite Q in Fq; discriminate).
    easy_step E. destruct (alloc_binding _ _ _ _ _ _ All E G) as (M0 & V0 & B0). clear E. rename a into b.
    easy_step E. unfold push_var in E. minv E. injection E0 as <- <-. injection E as <- <-.
    easy_step E. injection E as <- <-. set (s2 := with_heap _ _) in *.
    assert (M2 : made s s2 All b).
    { assert (P : made s (put s0 b (CBinding q0 (s_n s0) false None None)) All b) by (eapply put_made; try eassumption; [tauto|intros y []|constructor]).
      destruct P as [G' X K S O T F]. split; try assumption. destruct G' as [W T' Li V']. split; try assumption.
      intros v' b' [J|J]; [|apply (V' v' b' J)]. injection J as <- <-. exists q0, (s_n s0), false, None, None. split; [|exact Nq].
      apply set_nth_same. eapply nth_lt, B0. }
    clearbody s2. easy_step E. destruct (alloc_leaf _ _ _ _ All E (m_good _ _ _ _ M2) eq_refl eq_refl) as (G3 & _); [intros ? []|intros; exact I|].
    eapply (ends_bind (fun v f => match rel with Some n => do r <- run U ol v f _ (KRelative (Some b) n) ; set_restriction b r | None => ret tt end)).
    + apply maybe_rel_ends; try assumption. intros; apply total_set_restriction.
    + intros u s3 _. tot.
  - easy_step E. destruct a as [x def]. destruct (lookup_ok _ _ _ _ _ All E (env_all _)) as (Q1 & Q2 & Q3 & Q4 & Q5 & Q6 & D). clear E.
    assert (G0 : good s0) by (unfold good in *; rewrite Q1, Q2, Q4, Q6; exact G).
    easy_step E. destruct (alloc_leaf _ _ _ _ All E G0 eq_refl eq_refl) as (G1 & X1 & _ & A1 & _); [intros ? []|intros; exact I|]. clear E.
    destruct rel as [n|]; [|tot].
    easy_step E. destruct a0 as [b ay]. destruct (new_binding_ok _ _ _ _ _ _ All E G1) as (M2 & _ & _ & A2). clear E.
    assert (G2 := m_good _ _ _ _ M2). assert (X2 := m_ext _ _ _ _ M2).
    easy_step E. destruct (alloc_leaf _ _ _ _ All E G2 eq_refl eq_refl) as (G3 & X3 & _ & A3 & _); [intros ? []|discriminate|]. clear E.
    easy_step E. destruct (alloc_predication _ _ _ _ _ All E G3) as (M4 & _).
    { eapply atom_weak; [exact A3|]. intros d _. left. exact I. }
    { intros y [Y|[Y|[]]]; injection Y as <-.
      - eapply atom_weak; [eapply atom_ext; [exact A2|exact G2|exact X3]|]. intros d _. left. exact I.
      - eapply atom_weak; [eapply atom_ext; [eapply atom_ext; [exact A1|exact G1|exact X2]|exact G2|exact X3]|]. intros d _. left. exact I. }
    eapply ends_bind; [apply (h_rel _ IH); [exact L|exact Fr|exact (m_good _ _ _ _ M4)]|]. intros r s5 _.
    apply ends_total. apply total_bind; [apply total_alloc|]. intros z. apply total_bind; [apply total_set_restriction|]. discriminate.
Qed.

Lemma hoa_ends q rel s : rel_weight rel < N0 -> rel_fo rel = true -> good s -> ends (fun v f => hoa_argument (run U ol v f) q rel) s.
Proof.
  intros L Fr G. unfold hoa_argument. easy_step E. injection E as <- <-. destruct (s_hoa s) as [|def l]; [tot|].
  easy_step E. apply get_binding_ok in E. destruct E as [-> _].
  easy_step E. destruct (alloc_leaf _ _ _ _ All E G eq_refl eq_refl) as (G1 & X1 & _ & A1 & _); [intros ? []|intros; exact I|]. clear E.
  assert (Main : ends (fun v f =>
          do '(b, ay) <- new_binding QAll false ;
          do among <- alloc (CPred "≺") ;
          do l <- alloc (CPredication among [Some ay; Some a0]) ;
          do _ <- set_restriction b l ;
          do _ <- match rel with
                  | Some n =>
                      do r <- run U ol v f _ (KRelative (Some b) n) ;
                      do s <- alloc (CConnection KAnd l r) ;
                      set_restriction b s
                  | None => ret tt
                  end ;
          ret (Some b, ay)) s0).
  { easy_step E. destruct a1 as [b ay]. destruct (new_binding_ok _ _ _ _ _ _ All E G1) as (M2 & _ & (nb & N2) & A2). clear E.
    assert (G2 := m_good _ _ _ _ M2). assert (X2 := m_ext _ _ _ _ M2).
    easy_step E. destruct (alloc_leaf _ _ _ _ All E G2 eq_refl eq_refl) as (G3 & X3 & _ & A3 & _); [intros ? []|discriminate|]. clear E.
    easy_step E. destruct (alloc_predication _ _ _ _ _ (Or All (eq b)) E G3) as (M4 & _).
    { eapply atom_weak; [exact A3|]. intros d _. left. left. exact I. }
    { intros y [Y|[Y|[]]]; injection Y as <-.
      - eapply atom_weak; [eapply atom_ext; [exact A2|exact G2|exact X3]|]. intros d _. left. left. exact I.
      - eapply atom_weak; [eapply atom_ext; [eapply atom_ext; [exact A1|exact G1|exact X2]|exact G2|exact X3]|]. intros d _. left. left. exact I. }
    clear E. assert (G4 := m_good _ _ _ _ M4). assert (X4 := m_ext _ _ _ _ M4). assert (X24 := ext_trans _ _ _ G3 X3 X4).
    assert (M2' := made_later _ _ _ _ _ M2 X24 G4). assert (N4 := ext_nth _ _ _ _ X24 N2).
    assert (M4' := made_earlier _ _ _ _ _ G3 (ext_trans _ _ _ G2 X2 X3) M4).
    assert (Nb : a2 <> b) by (pose proof (m_new _ _ _ _ M4); pose proof (ext_len _ _ X3); apply nth_lt in N2; lia).
    easy_step E. destruct (restrict_made _ _ _ _ _ _ _ _ _ _ M2' N4 M4' Nb E) as (M5 & _).
    eapply (ends_bind (fun v f => match rel with Some n => do r <- run U ol v f _ (KRelative (Some b) n) ; do s <- alloc (CConnection KAnd a2 r) ; set_restriction b s | None => ret tt end)).
    - apply maybe_rel_ends; [exact L|exact Fr|exact (m_good _ _ _ _ M5)|]. intros r. apply total_bind; [apply total_alloc|]. intros; apply total_set_restriction.
    - intros u s6 _. tot. }
  destruct q, rel; try exact Main. tot.
Qed.

Lemma argument_ends f0 q p rel s : weight (NPredArg f0 q p rel) < S N0 -> fo (NPredArg f0 q p rel) = true -> good s ->
  ends (fun v f => predicate_argument U ol v (run U ol v f) f0 q p rel) s.
Proof.
  intros L Fo G. cbn [first_order weight] in *. apply andb_prop in Fo. destruct Fo as [Fp Fr]. unfold predicate_argument.
  assert (Lr : rel_weight rel < N0) by (unfold rel_weight; destruct rel; lia).
  easy_step E. injection E as <- <-. destruct (find _ (s_lifted s)) as [[k b]|].
  - apply ends_total. apply total_bind; [apply total_get_binding|]. discriminate.
  - destruct (is_variable U ol p) as [v0|]; [apply var_ends; assumption|]. destruct (is_hoa U p); [apply hoa_ends; assumption|].
    andb. rename H into Fq. rename H0 into Fp. easy_step E. unfold lift in E. destruct (quantifier U q) as [qq| |] eqn:Q; try discriminate. injection E as <- <-.
    easy_step E. destruct a as [b a]. destruct (new_binding_ok _ _ _ _ _ _ All E G) as (M1 & _ & (nb & N1) & A1). clear E. rename s0 into s1.
    assert (G1 := m_good _ _ _ _ M1). assert (X1 := m_ext _ _ _ _ M1).
    unfold make_predication, predication.
    apply ends_bind.
    { eapply ends_bind; [apply (h_pred _ IH); [lia|exact Fp|exact G1]|]. intros c s2 _. tot. }
    intros r1 s3 Y. apply yields_some in Y. destruct Y as (v1 & f1 & Y). minv Y.
    destruct (p_pred _ _ _ (run_specs U ol v1 f1) _ _ _ _ All E Fp G1 (env_all _)) as (G2 & X2 & _ & P2). clear E.
    destruct (distribute_made (Or All (eq b)) _ _ _ _ _ Y G2) as (M3 & _).
    { eapply pall_weak; [exact P2|]. intros y K. eapply atom_weak; [exact K|]. intros d D. left. left. exact D. }
    { intros y n [K|[]]. injection K as <- <-. eapply atom_weak; [eapply atom_ext; [exact A1|exact G1|exact X2]|]. intros d _. left. left. exact I. }
    assert (G3 := m_good _ _ _ _ M3). assert (X13 := ext_trans _ _ _ G2 X2 (m_ext _ _ _ _ M3)).
    assert (M1' := made_later _ _ _ _ _ M1 X13 G3). assert (N3 := ext_nth _ _ _ _ X13 N1).
    assert (M3' := made_earlier _ _ _ _ _ G2 (ext_trans _ _ _ G1 X1 X2) M3).
    assert (Nb : r1 <> b) by (pose proof (m_new _ _ _ _ M3); pose proof (ext_len _ _ X2); apply nth_lt in N1; lia).
    easy_step E. destruct (restrict_made _ _ _ _ _ _ _ _ _ _ M1' N3 M3' Nb E) as (M4 & _ & N4 & _). clear E.
    eapply (ends_bind (fun v f => match rel with Some n => do r <- run U ol v f _ (KRelative (Some b) n) ; do s' <- alloc (CConnection KAnd r1 r) ; set_restriction b s' | None => ret tt end)).
    { apply maybe_rel_ends; [exact Lr|exact Fr|exact (m_good _ _ _ _ M4)|]. intros r. apply total_bind; [apply total_alloc|]. intros; apply total_set_restriction. }
    intros u s5 K. apply yields_some in K. destruct K as (v2 & f2 & K).
    assert (G5 : good s5).
    { destruct rel as [rn|]; [|minv K; subst; exact (m_good _ _ _ _ M4)].
      minv K. destruct (p_rel _ _ _ (run_specs U ol v2 f2) _ _ _ _ _ (Or All (eq b)) E) as (M6 & _); [exact Fr|exact (m_good _ _ _ _ M4)|intros v' d' _; left; exact I|right; reflexivity|].
      minv K. assert (M4' := made_later _ _ _ _ _ M4 (m_ext _ _ _ _ M6) (m_good _ _ _ _ M6)). assert (N6 := ext_nth _ _ _ _ (m_ext _ _ _ _ M6) N4).
      assert (M6' := made_earlier _ _ _ _ _ (m_good _ _ _ _ M4) (m_ext _ _ _ _ M4) M6).
      assert (Nb' : a2 <> b) by (pose proof (m_new _ _ _ _ M6); apply nth_lt in N4; lia).
      destruct (and_made _ _ _ _ _ _ _ _ _ _ _ _ _ _ M4' N6 M6' Nb' E0 K) as (M7 & _). exact (m_good _ _ _ _ M7). }
    destruct qq; try tot.
    + eapply (ends_bind (fun v _ => has_free_vars v b)); [apply has_free_ends, G5|]. intros [] s6 _; [|tot].
      apply ends_total. apply total_bind; [apply total_set_quantifier|]. discriminate.
    + apply ends_total. apply total_bind; [discriminate|]. intros _. apply total_bind; [discriminate|]. intros []; discriminate.
Qed.

Lemma bind_scope_ends b y s q n f r : nth_error (s_heap s) b = Some (CBinding q n f r None) -> ends (fun v _ => bind_scope v (Some b) y) s.
Proof.
  intros E. exists 1, (bind_scope 1 (Some b) y s).
  assert (K : forall v, bind_scope (S v) (Some b) y s = mbind (set_scope b y) (fun _ => ret b) s).
  { intros v. unfold bind_scope. cbn [bind_scope_fuel]. unfold mbind at 1, get_binding at 1, get. unfold mbind at 1. rewrite E. reflexivity. }
  rewrite K. split; [apply total_bind; [apply total_set_scope|discriminate]|]. intros [|v] f' V _; [lia|apply K].
Qed.

(** What follows an argument in prenexStatement. *)
Lemma rest_ends s s1 bo x a p n bi rest t : argd s s1 All bo x -> good s -> args_in s All a -> fo n = true -> forallb fo rest = true ->
  1 + weight n + weights rest < N0 ->
  ends (fun v f => do '(y, rest') <- run U ol v f _ (KPrenex (a ++ [(x, p)]) n bi rest) ; do z <- bind_scope v bo y ; ret (z, t :: rest' : list node)) s1.
Proof.
  intros D G A Fn Fr L. destruct D as [G1 X1 At Bo].
  assert (A1 : args_in s1 All (a ++ [(x, p)])).
  { intros w k I0. apply in_app_or in I0. destruct I0 as [I0|[I0|[]]]; [eapply args_ext; eassumption|]. injection I0 as <- <-.
    eapply atom_weak; [exact At|]. intros d _. left. exact I. }
  eapply ends_bind; [apply (h_pren _ IH); assumption|]. intros [y rest'] s2 Y. apply y_pren in Y; [|assumption..]. destruct Y as (M & _).
  cbv beta iota. apply (ends_bind (fun v _ => bind_scope v bo y)); [|intros z s3 _; tot].
  destruct bo as [b|]; [|cbn [bind_scope]; tot]. destruct Bo as (_ & (q & nn & f & r & B) & _).
  eapply bind_scope_ends. eapply ext_nth; [exact (m_ext _ _ _ _ M)|exact B].
Qed.

Lemma prenex_ends a n bi ts s : 1 + weight n + weights ts < S N0 -> fo n = true -> forallb fo ts = true -> good s -> args_in s All a ->
  ends (fun v f => prenex_statement U v (run U ol v f) a n bi ts) s.
Proof.
  intros L Fn Ft G A. unfold prenex_statement. apply ends_vars. destruct ts as [|t rest].
  { eapply ends_bind; [apply (h_stmt _ IH); [lia|assumption..|]|]; [destruct (has_text U bi "pa"); [exact A|intros ? ? []]|]. intros x s1 _. tot. }
  cbn [forallb] in Ft. apply andb_prop in Ft. destruct Ft as [Ft Fr]. rewrite weights_cons in L.
  assert (Two : forall c l c1 c2, fo c1 = true -> fo c2 = true -> l = c1 :: rest -> weight c1 < weight t -> weight c2 < weight t ->
    ends (fun v f => do '(x, terms1) <- run U ol v f _ (KPrenex a n bi l) ; do '(y, terms2) <- run U ol v f _ (KPrenex a n bi (c2 :: tl terms1)) ;
      do z <- alloc (CConnection c x y) ; ret (z, terms2 : list node)) s).
  { intros c l c1 c2 F1 F2 -> L1 L2.
    assert (K1 : forallb fo (c1 :: rest) = true) by (cbn [forallb]; rewrite F1, Fr; reflexivity).
    eapply ends_bind; [apply (h_pren _ IH); try assumption; rewrite weights_cons; lia|]. intros [x t1] s1 Y. apply y_pren in Y; [|assumption..].
    destruct Y as (M & _ & K2 & W). cbn [tl] in W. cbv beta iota. assert (G1 := m_good _ _ _ _ M).
    assert (K3 : forallb fo (c2 :: tl t1) = true).
    { cbn [forallb]. rewrite F2. destruct t1; [reflexivity|]. cbn [forallb tl] in *. apply andb_prop in K2. apply K2. }
    eapply ends_bind; [apply (h_pren _ IH); try assumption; [rewrite weights_cons; lia|eapply args_ext; [exact A|exact G|exact (m_ext _ _ _ _ M)]]|]. intros [y t2] s2 _. tot. }
  destruct t; try discriminate; try (tot; fail).
  - (* linked *) cbn [first_order weight] in *. unfold argument_case. destruct t; try discriminate; try (tot; fail).
    + eapply ends_bind; [apply (h_arg _ IH); [lia|assumption..]|]. intros [bo x] s1 Y. apply y_arg in Y; [|assumption..]. cbv beta iota.
      easy_step E. apply lift_same in E. subst. eapply rest_ends; try eassumption. lia.
    + destruct k; try discriminate; try (tot; fail). cbn [first_order weight] in *. andb. destruct (has_text U ru "roi"); [discriminate|].
      easy_step E. apply assert_ok in E. destruct E as [-> ->]. easy_step E. apply assert_ok in E. destruct E as [-> ->].
      easy_step E. apply lift_same in E. subst. eapply (Two _ _ (NLinked go t1) (NLinked go t2)); [assumption|assumption|reflexivity|cbn [weight]; lia|cbn [weight]; lia].
  - (* argument *)
    eapply ends_bind; [apply (h_arg _ IH); [lia|assumption..]|]. intros [bo x] s1 Y. apply y_arg in Y; [|assumption..]. cbv beta iota.
    eapply (ends_bind (fun _ _ => _)); [apply ends_total; destruct bo; [destruct (negb _ && negb _)%bool; [apply total_set_focus|apply total_ret]|apply total_ret]|].
    intros u s2 K. apply yields_const in K. apply focus_arg with (s := s) (E := All) (x := x) in K; [|exact Y].
    eapply rest_ends; try eassumption. cbn [weight] in L. lia.
  - destruct k; try discriminate; try (tot; fail).
    + (* term set *) destruct t1; try discriminate; try (tot; fail). destruct t2; try discriminate; try (tot; fail). cbn [first_order weight] in *. andb.
      easy_step E. apply lift_same in E. subst.
      assert (W : forall l, weights (prepend rest l) = weights l + weights rest) by (intros; unfold prepend; apply weights_app).
      assert (K1 : forallb fo (prepend rest ts) = true) by (unfold prepend; rewrite forallb_app, Fr; apply andb_true_intro; auto).
      assert (K2 : forallb fo (prepend rest ts0) = true) by (unfold prepend; rewrite forallb_app, Fr; apply andb_true_intro; auto).
      eapply ends_bind; [apply (h_pren _ IH); try assumption; rewrite W; unfold weights in *; lia|]. intros [x t1] s1 Y. apply y_pren in Y; [|assumption..].
      destruct Y as (M & _). cbv beta iota.
      eapply ends_bind; [apply (h_pren _ IH); [rewrite W; unfold weights in *; lia|assumption|assumption|exact (m_good _ _ _ _ M)|eapply args_ext; [exact A|exact G|exact (m_ext _ _ _ _ M)]]|].
      intros [y t2] s2 _. tot.
    + (* argument *) cbn [first_order weight] in *. andb. destruct (has_text U ru "roi"); [discriminate|].
      easy_step E. apply assert_ok in E. destruct E as [-> ->]. easy_step E. apply assert_ok in E. destruct E as [-> ->].
      easy_step E. apply lift_same in E. subst. eapply (Two _ _ t1 t2); [assumption|assumption|reflexivity|lia|lia].
Qed.
End Step.

Theorem run_ends : forall N, hyps N.
Proof.
  induction N as [|N IH]; [split; intros; lia|]. split; intros; apply ends_run; cbn [body].
  - apply (sentence_ends N IH); assumption.
  - apply (subordinate_ends N IH); [lia|assumption..].
  - apply (statement_ends N IH); assumption.
  - apply (prenex_ends N IH); assumption.
  - apply (predicate_ends N IH); assumption.
  - apply (argument_ends N IH); assumption.
  - apply (relative_ends N IH); assumption.
Qed.
End Ends.
