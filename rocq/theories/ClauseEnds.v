(** The interpretation of sentences with clauses ends: the size of calls, and walks over the
    heap. *)

From Coq Require Import String NArith List Bool Arith Lia.
From Verif Require Import Base PegSyntax Ast AstSorts Logic LogicWords LogicSpec ScopeSpec Interp OrderFacts SeqFacts TermFacts ScopeFacts ScopeInterp ScopeRun Meaning MeaningFacts Clauses ClauseHeap ClauseRun ClauseStep ClauseBind ClauseSpecs ClauseArgs ClauseFront.
From Verif Require Import ScopeEnds.
From Verif Require MeaningStep MeaningArgs LogicFuel.
Import ListNotations.
Open Scope string_scope.
Open Scope list_scope.
Open Scope nat_scope.

(** ** Walks over the heap *)

Definition walk_ends (h : heap) (r : ref) : Prop := exists f0, forall f, f0 <= f -> visited h f r <> NoFuel.
Lemma walks_below h l : (forall x, In x l -> walk_ends h x) -> exists f0, forall f, f0 <= f -> flat_res (visited h f) l <> NoFuel.
Proof.
  induction l as [|a l IHl]; intros W; [exists 0; discriminate|]. destruct (W a (or_introl eq_refl)) as (f1 & E1). destruct IHl as (f2 & E2); [intros; apply W; right; assumption|].
  exists (f1 + f2). intros f L. specialize (E1 f ltac:(lia)). specialize (E2 f ltac:(lia)). cbn [flat_res]. destruct (visited h f a); cbn [bind]; try congruence. destruct (flat_res (visited h f) l); cbn [bind]; congruence.
Qed.
Lemma walk_cell h r c : nth_error h r = Some c -> (forall x, In x (below c) -> walk_ends h x) -> walk_ends h r.
Proof.
  intros E W. destruct (walks_below h _ W) as (f0 & K). exists (S f0). intros [|f] L; [lia|]. cbn [visited]. rewrite E. specialize (K f ltac:(lia)). destruct (flat_res _ _); cbn [bind]; congruence.
Qed.
Lemma walk_thing h r v : rthing h r v -> walk_ends h r.
Proof. intros [r' n d f E N|r' n E]; eapply walk_cell; [exact E|intros x []|exact E|intros x []]. Qed.
Lemma walk_prop h r p : rprop h r p -> walk_ends h r.
Proof.
  induction 1; [|eapply walk_thing; eassumption|]; (eapply walk_cell; [eassumption|]); cbn [below In]; [tauto|]. intros z [<-|[<-|[]]]; assumption.
Qed.
Lemma walk_at h :
  (forall X r F, at_f h X r F -> walk_ends h r) /\ (forall X r p, at_p h X r p -> walk_ends h r) /\
  (forall X r a, at_t h X r a -> walk_ends h r) /\ (forall X xs l, at_r h X xs l -> forall x, In x (flat_map olist xs) -> walk_ends h x).
Proof.
  apply at_ind; intros.
  - eapply walk_cell; [eassumption|]. cbn [below]. intros z [<-|I]; auto.
  - eapply walk_cell; [eassumption|]. cbn [below]. intros z [<-|[<-|[]]]; auto.
  - eapply walk_cell; [eassumption|]. cbn [below olist app]. intros z [<-|[]]; auto.
  - eapply walk_cell; [eassumption|]. cbn [below olist app]. intros z [<-|[<-|[]]]; auto.
  - eapply walk_prop; eassumption.
  - eapply walk_cell; [eassumption|]. cbn [below]. intros z [<-|[]]; auto.
  - eapply walk_thing; eassumption.
  - eapply walk_cell; [eassumption|]. intros z [].
  - eapply walk_cell; [eassumption|]. cbn [below]. intros z [<-|[]]; auto.
  - eapply walk_cell; [eassumption|]. cbn [below]. auto.
  - match goal with H : In _ _ |- _ => destruct H end.
  - auto.
  - match goal with H : In _ (flat_map olist (Some _ :: _)) |- _ => destruct H as [<-|I] end; auto.
Qed.
Lemma free_ends s b : walk_ends (s_heap s) b -> ends (fun v _ => has_free_vars v b) s.
Proof.
  intros (f0 & W). exists f0, (has_free_vars f0 b s). unfold has_free_vars. assert (N := W f0 (le_n _)). split.
  - destruct (visited (s_heap s) f0 b) as [l| |]; cbn [bind]; try congruence. assert (K := scan_total (s_heap s) l [] false).
    destruct (free_scan _ _ _ _); cbn [bind]; congruence.
  - intros v f V _. destruct (LogicFuel.le_visited (s_heap s) f0 v b V) as [X|X]; [contradiction|]. rewrite <- X. reflexivity.
Qed.
Lemma did_free_ends g t s W s' t' W' x F : did g t s W s' t' W' x F -> ends (fun v _ => has_free_vars v x) s'.
Proof. intros (X & S & A & _). apply free_ends. eapply (proj1 (walk_at _)), A. Qed.
Lemma bset_free_ends s t W s1 t1 W1 b q x f r R : bset s t W s1 t1 W1 b q x f r R -> ends (fun v _ => has_free_vars v b) s1.
Proof. intros (Y & S & B & A). apply free_ends. eapply walk_cell; [exact B|]. cbn [below olist app]. intros z [<-|[]]. eapply (proj1 (walk_at _)), A. Qed.
Lemma scope_ends g t s W s1 t1 W1 bo x b v fo g' g2 s2 t2 W2 y F : dida g t s W s1 t1 W1 bo x b v fo g' -> did g2 t1 s1 W1 s2 t2 W2 y F -> ends (fun v _ => bind_scope v bo y) s2.
Proof.
  intros (X & _ & B & _) (Y & S2 & _). destruct bo as [r|]; [|cbn [bind_scope]; apply ends_const; discriminate].
  assert (B2 := grows_bind _ _ _ _ _ _ (z_grows S2) B). inversion B2; subst; eapply bind_scope_ends; eassumption.
Qed.

(** ** The size of a node *)

Fixpoint size (n : node) : nat :=
  match n with
  | NSentence _ st _ => size st + 1
  | NPrenex ts _ | NTerms ts => list_sum (map size ts)
  | NPrenexStmt p st => size p + size st + 1
  | NPredication p ts _ => size p + 1 + match ts with None => 0 | Some l => list_sum (map size l) + 3 end
  | NSerial l r => size l + size r + 1
  | NPo _ _ a => size a + 1
  | NPredContent p => size p + 1
  | NLinked _ a => size a + 1
  | NPrep p a => size p + size a + 1
  | NAdverb p => size p + 1
  | NPredArg _ _ p rel => size p + match rel with None => 0 | Some x => size x end + 1
  | NPredRel p => size p + 1
  | NCoP _ _ _ _ l r => size l + size r + 1
  | NLU _ _ st => size st + 1
  | _ => 1
  end.
Definition sizes (l : list node) : nat := list_sum (map size l).
Lemma sizes_cons n l : sizes (n :: l) = size n + sizes l. Proof. reflexivity. Qed.
Lemma sizes_app l m : sizes (l ++ m) = sizes l + sizes m.
Proof. unfold sizes. rewrite map_app, list_sum_app. reflexivity. Qed.
Definition tail_size (a : arg0) : nat := match a with AVar _ => 0 | ATail _ st _ ts => size st + sizes ts end.

(** ** The terms that prenexStatement and preposition leave behind *)

Section Left.
Variables (U : unicode) (ol : list (N * N)) (v : nat).
Record leaves (self : forall A, call A -> Interp.M A) : Prop := Leaves {
  l_pren : forall a n bi ts s x ts' s', self _ (KPrenex a n bi ts) s = Ok (x, ts', s') -> sizes ts' <= sizes ts /\ sizes (tl ts') <= sizes (tl ts);
  l_prep : forall n a s x ts s', self _ (KPreposition n a) s = Ok (x, ts, s') -> sizes ts <= sizes (tail_terms a);
  l_by : forall p a n s x ts s', self _ (KPredPreposition p a n) s = Ok (x, ts, s') -> sizes ts <= sizes (tail_terms a) }.
Lemma tail_with a ts : sizes ts <= sizes (tail_terms a) -> sizes (tail_terms (with_terms a ts)) <= sizes (tail_terms a).
Proof. destruct a; cbn [tail_terms with_terms]; auto. Qed.

Section Step.
Variable self : forall A, call A -> Interp.M A.
Hypothesis IH : leaves self.
Lemma prenex_left a n bi ts s x ts' s' : prenex_statement U v self a n bi ts s = Ok (x, ts', s') -> sizes ts' <= sizes ts /\ sizes (tl ts') <= sizes (tl ts).
Proof.
  intros H. unfold prenex_statement in H. apply with_vars_inv in H. destruct H as (s1 & H & ->). destruct ts as [|t rest].
  { minv H. minv H. injection H as <- <-. auto. }
  cbn [tl]. rewrite sizes_cons.
  assert (Same : forall a s y r' s2, self _ (KPrenex a n bi rest) s = Ok (y, r', s2) -> sizes (t :: r') <= size t + sizes rest /\ sizes r' <= sizes rest).
  { intros a0 s0 y r' s2 K. destruct (l_pren _ IH _ _ _ _ _ _ _ _ K). rewrite sizes_cons. lia. }
  assert (Two : forall c1 c2 a s y t1 s2 z t2 s3, size c2 < size t ->
    self _ (KPrenex a n bi (c1 :: rest)) s = Ok (y, t1, s2) -> self _ (KPrenex a n bi (c2 :: tl t1)) s2 = Ok (z, t2, s3) ->
    sizes t2 <= size t + sizes rest /\ sizes (tl t2) <= sizes rest).
  { intros c1 c2 a0 s0 y t1 s2 z t2 s3 Hw K1 K2. destruct (l_pren _ IH _ _ _ _ _ _ _ _ K1). destruct (l_pren _ IH _ _ _ _ _ _ _ _ K2). rewrite !sizes_cons in *. cbn [tl] in *. lia. }
  assert (Prep : (do '(sub, rest') <- self _ (KPrenex a n bi rest) ; do free <- has_free_vars v sub ;
      if (free : bool) then do '(z, rest'') <- self _ (KPreposition t (ATail a n bi rest')) ; ret (z, t :: rest'')
      else do '(b, x) <- new_binding QThe false ; do _ <- restrict_content b x sub ; do _ <- add_the b ; do '(z, _) <- self _ (KPreposition t (AVar x)) ; ret (z, t :: rest')) s = Ok (x, ts', s1) ->
      sizes ts' <= size t + sizes rest /\ sizes (tl ts') <= sizes rest).
  { clear H. intros H. minv H. specialize (Same _ _ _ _ _ E). minv H. destruct a0.
    - minv H. minv H. injection H as <- <-. apply (l_prep _ IH) in E1. rewrite sizes_cons in *. cbn [tail_terms tl] in *. lia.
    - minv H. minv H. minv H. minv H. minv H. injection H as <- <-. exact Same. }
  assert (Adv : (do '(sub, rest') <- self _ (KPrenex a n bi rest) ; do '(b, x) <- new_binding QUnset false ; do _ <- restrict_content b x sub ; do free <- has_free_vars v sub ;
      if (free : bool) then do _ <- set_quantifier b QAll ; do s <- self _ (KAdverb t x) ; do z <- bind_scope v (Some b) s ; ret (z, t :: rest')
      else do _ <- set_quantifier b QThe ; do _ <- add_the b ; do z <- self _ (KAdverb t x) ; ret (z, t :: rest')) s = Ok (x, ts', s1) ->
      sizes ts' <= size t + sizes rest /\ sizes (tl ts') <= sizes rest).
  { clear H. intros H. minv H. specialize (Same _ _ _ _ _ E). minv H. minv H. minv H. match type of H with context [if ?b then _ else _] => destruct b end; minv H; minv H; minv H; minv H; injection H as <- <-; exact Same. }
  destruct t; try discriminate; try (apply Adv, H); try (apply Prep, H).
  - clear Prep Adv. unfold argument_case in H. destruct t; try discriminate.
    + minv H. minv H. minv H. minv H. minv H. injection H as <- <-. eapply Same, E1.
    + destruct k; try discriminate. destruct (has_text U ru "roi"); [minv H; minv H; minv H; minv H; minv H; injection H as <- <-; eapply Same; eassumption|].
      repeat minv H. injection H as <- <-. apply assert_ok in E, E0. destruct E as [-> ->], E0 as [-> ->]. eapply (Two (NLinked go t1) (NLinked go t2)); [cbn [size]; lia|eassumption|eassumption].
  - clear Prep Adv. minv H. minv H. minv H. minv H. minv H. injection H as <- <-. eapply Same, E1.
  - destruct k; try discriminate; try (apply Adv, H); try (apply Prep, H); clear Prep Adv.
    + destruct t1; try discriminate. destruct t2; try discriminate. repeat minv H. injection H as <- <-. rewrite sizes_cons. auto.
    + destruct (has_text U ru "roi"); [minv H; minv H; minv H; minv H; injection H as <- <-; eapply Same; eassumption|].
      repeat minv H. injection H as <- <-. apply assert_ok in E, E0. destruct E as [-> ->], E0 as [-> ->]. eapply (Two t1 t2); [cbn [size]; lia|eassumption|eassumption].
Qed.
Lemma preposition_left n a s x ts s' : do_preposition U self n a s = Ok (x, ts, s') -> sizes ts <= sizes (tail_terms a).
Proof.
  intros H. unfold do_preposition in H. apply with_vars_inv in H. destruct H as (s1 & H & ->). destruct n; try discriminate; [exact (l_by _ IH _ _ _ _ _ _ _ H)|].
  destruct k; try discriminate. minv H. minv H. minv H. minv H. minv H. minv H. minv H. injection H as <- <-. apply (l_prep _ IH) in E1, E3. apply tail_with in E1. lia.
Qed.
Lemma by_left p a n s x ts s' : pred_preposition U v self p a n s = Ok (x, ts, s') -> sizes ts <= sizes (tail_terms a).
Proof.
  intros H. unfold pred_preposition in H. apply with_vars_inv in H. destruct H as (s1 & H & ->).
  assert (One : forall bo y s0, (match a with
         | AVar v0 => do s <- make_predication self p [v0; y] ; do z <- bind_scope v bo s ; ret (z, [])
         | ATail args0 stmt bi terms => do '(sub, terms') <- self _ (KPrenex args0 stmt bi terms) ; do '(b1, x) <- new_binding QAll false ; do _ <- restrict_content b1 x sub ;
             do s <- make_predication self p [x; y] ; do s' <- bind_scope v (Some b1) s ; do z <- bind_scope v bo s' ; ret (z, terms')
         end) s0 = Ok (x, ts, s1) -> sizes ts <= sizes (tail_terms a)).
  { clear H. intros bo y s0 H. destruct a as [v0|a0 st bi ts0].
    - minv H. minv H. minv H. injection H as <- <-. cbn [tail_terms]. auto.
    - minv H. minv H. minv H. minv H. minv H. minv H. minv H. injection H as <- <-. apply (l_pren _ IH) in E. apply E. }
  unfold argument_case in H. destruct n; try discriminate; [minv H; eapply One, H|]. destruct k; try discriminate. destruct (has_text U ru "roi"); [minv H; eapply One, H|].
  minv H. minv H. minv H. minv H. minv H. minv H. minv H. injection H as <- <-. apply (l_by _ IH) in E1, E3. apply tail_with in E1. lia.
Qed.
End Step.
Lemma run_left : forall f, leaves (run U ol v f).
Proof.
  induction f as [|f IH]; [split; intros; discriminate|]. split; intros *; cbn [run body]; [apply (prenex_left _ IH)|apply (preposition_left _ IH)|apply (by_left _ IH)].
Qed.
End Left.
