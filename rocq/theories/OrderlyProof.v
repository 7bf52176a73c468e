(** The parts of orderly sentences, by induction on the rules of Clauses.v. *)

From Coq Require Import String NArith List Bool Arith Lia.
From Verif Require Import Base PegSyntax Ast AstSorts Logic LogicWords LogicSpec ScopeSpec Meaning Clauses ClauseHeap ClauseOne Truth TruthFacts ClauseNotation Orderly OrderlyFacts.
From Verif Require MeaningNames MeaningOne MeaningCases.
Import ListNotations.
Open Scope string_scope.
Open Scope list_scope.
Open Scope nat_scope.

Local Notation refers := Clauses.refers.

(** ** Bindings *)

Definition limit_ok (g : scene) (t : told) (x : nat) (q : quant) (R : form) (t' : told) : Prop :=
  incl (stray R) (x :: avail g ++ outs t') /\ (forall y, In y (frees R) -> between t t' y) /\ (forall y, In y (binders R) -> between t t' y) /\
  tame R = true /\ (forall y, In y (as_predicates R) -> In y (bound_names g) \/ between t t' y) /\ (q = QThe \/ q = QAll -> own x [] R = true).
Definition bind_ok (g : scene) (t : told) (b : option binding_of) (v : thing) (g' : scene) (t' : told) : Prop :=
  match b with
  | None => g' = g /\ (forall x, In x (of_var v) -> In x (avail g ++ outs t')) /\ (forall x, In x (free_var v) -> between t t' x)
  | Some (q, x, oR) =>
      (exists f, v = Bound x f) /\ between t t' x /\ incl (bound_names g') (x :: bound_names g) /\ v_hoa g' = v_hoa g /\
      v_bound g' = (x, true) :: v_bound g /\ match oR with None => q <> QLambda | Some R => limit_ok g t x q R t' end
  end.

Lemma bound_hoa g t b v g' t' : bind_ok g t b v g' t' -> v_hoa g' = v_hoa g.
Proof. destruct b as [[[q x] oR]|]; cbn; [tauto|]. now intros (-> & _). Qed.
Lemma bound_counted g t b v g' t' : bind_ok g t b v g' t' -> incl (counted_in g) (counted_in g').
Proof.
  destruct b as [[[q x] oR]|]; cbn; [|intros (-> & _); apply incl_refl]. intros (_ & _ & _ & _ & E & _). unfold counted_in. rewrite E. cbn. intros y I. now right.
Qed.
Lemma bound_avail g t b v g' t' x : bind_ok g t b v g' t' -> In x (avail g') -> In x (avail g) \/ (exists q R, b = Some (q, x, R)).
Proof.
  destruct b as [[[q y] oR]|]; cbn; [|intros (-> & _); auto]. intros (_ & _ & I & H & _ & _). unfold avail, hoa_in. rewrite H, !in_app_iff.
  intros [J|J]; [|auto]. destruct (I x J) as [<-|K]; eauto.
Qed.
Lemma bound_shown g t b v g' t' : bind_ok g t b v g' t' -> shown_hoa g -> shown_hoa g'.
Proof. intros B S0 x E. apply (bound_counted _ _ _ _ _ _ B), S0. now rewrite <- (bound_hoa _ _ _ _ _ _ B). Qed.
Lemma bound_okay g t b v g' t' : bind_ok g t b v g' t' -> grows t t' -> okay g t -> okay g' t'.
Proof.
  intros B G O. apply (okay_grows g t t' G) in O. destruct b as [[[q x] oR]|]; cbn in B; [|destruct B as (-> & _); exact O].
  destruct B as (_ & X & I & H & E & _). destruct O as [A C D]. constructor.
  - unfold counted_in. rewrite E. cbn. intros y J. destruct (I y J) as [<-|K]; [now left|right]. apply A, K.
  - rewrite E. cbn. intros y [<-|J]; [apply X|auto].
  - rewrite H. exact D.
Qed.

Lemma okay_in_scope g t x c : okay g t -> x < n_next t -> okay (in_scope g x c) t.
Proof.
  intros [A B C] L. constructor; cbn; [|intros y [<-|I]; auto|exact C]. unfold counted_in. cbn. intros y I. destruct c; [right|]; exact (A y I).
Qed.
Lemma okay_about g t x : okay g t -> x < n_next t -> okay (about g x) t.
Proof. intros [A B C] L. constructor; cbn; auto. intros y [= <-]. exact L. Qed.
Lemma okay_naming g t v x : okay g t -> x < n_next t -> okay (naming g v x true) t.
Proof.
  intros [A B C] L. constructor; cbn; [|intros y [<-|I]; auto|exact C]. unfold counted_in, bound_names. cbn. intros y [<-|I]; [now left|right]. exact (A y I).
Qed.
Lemma avail_lt g t x : okay g t -> In x (avail g) -> x < n_next t.
Proof.
  intros [A B C] I. apply in_app_or in I as [I|I].
  - apply A in I. unfold counted_in in I. apply in_map_iff in I as (e & <- & J). apply filter_In in J as [J _]. apply B. now apply in_map.
  - unfold hoa_in in I. destruct (v_hoa g) as [y|] eqn:E; [|destruct I]. destruct I as [<-|[]]. auto.
Qed.
Lemma names_lt g t x : okay g t -> In x (bound_names g) -> x < n_next t.
Proof. intros O I. apply (avail_lt g t x O). apply in_or_app. now left. Qed.
Lemma counted_lt g t x : okay g t -> In x (counted_in g) -> x < n_next t.
Proof. intros [A B C] I. unfold counted_in in I. apply in_map_iff in I as (e & <- & J). apply filter_In in J as [J _]. apply B. now apply in_map. Qed.
Lemma shown_in_scope g x c : shown_hoa g -> shown_hoa (in_scope g x c).
Proof. intros S0 y E. unfold counted_in. cbn. destruct c; [right|]; apply (S0 y E). Qed.
Lemma shown_about g x : shown_hoa (about (in_scope g x true) x).
Proof. intros y [= <-]. now left. Qed.

Lemma not_free g F x : free_in g F = false -> In x (counted_in g) -> In x (stray F) -> False.
Proof.
  intros E I J. unfold counted_in in I. apply in_map_iff in I as ([y c] & <- & K). apply filter_In in K as [K C]. cbn in *. subst c.
  assert (T : free_in g F = true); [|congruence]. unfold free_in. apply existsb_exists. exists (y, true). split; [exact K|]. cbn.
  apply existsb_exists. exists y. split; [|apply Nat.eqb_refl]. apply (proj1 stray_occurring), J.
Qed.

(** ** Formulas that bindings are put around *)

Lemma wrapped_said g t b v g' t1 t2 bv fv F focus : bind_ok g t b v g' t1 -> grows t t1 -> grows t1 t2 ->
  said g' t1 (of_var v ++ bv) (free_var v ++ fv) F t2 -> said g t bv fv (wrapped b focus F) t2.
Proof.
  intros B G1 G2 (A & Fr & Bi & T & P). pose proof G1 as (L1 & O1 & _). pose proof G2 as (L2 & O2 & _).
  destruct b as [[[q x] oR]|]; cbn [bind_ok] in B.
  - destruct B as ((f & ->) & X & N & H & _ & R). assert (S0 : forall y, In y (stray F) -> y <> x -> In y (avail g ++ outs t2 ++ bv)).
    { intros y I D. specialize (A y I). rewrite !in_app_iff in *. destruct A as [A|[A|[[A|[]]|A]]]; [|auto|congruence|auto].
      left. unfold avail, hoa_in in *. rewrite H in A. rewrite in_app_iff in *. destruct A as [A|A]; [|auto]. destruct (N y A); [congruence|auto]. }
    assert (P0 : forall y, In y (as_predicates F) -> In y (bound_names g) \/ between t t2 y).
    { intros y I. destruct (P y I) as [J|J]; [|right; unfold between in *; lia]. destruct (N y J) as [<-|K]; [right; unfold between in *; lia|auto]. }
    destruct oR as [R0|]; cbn [wrapped].
    + destruct R as (A' & Fr' & Bi' & T' & P' & O'). split; [|split; [|split; [|split]]]; cbn [stray frees binders tame as_predicates].
      * intros y I. apply in_without in I as [I D]. apply in_app_or in I as [I|I]; [|auto]. destruct (A' y I) as [E|K]; [congruence|].
        apply in_app_or in K as [K|K]; [apply in_or_app; left; exact K|]. apply in_or_app; right. apply in_or_app; left. apply O2, K.
      * intros y I. apply in_app_or in I as [I|I]; [right; specialize (Fr' y I); unfold between in *; lia|]. destruct (Fr y I) as [K|K]; [auto|right; unfold between in *; lia].
      * intros y [<-|I]; [unfold between in *; lia|]. apply in_app_or in I as [I|I]; [specialize (Bi' y I)|specialize (Bi y I)]; unfold between in *; lia.
      * rewrite T, T'. cbn. destruct q; auto.
      * intros y I. apply in_app_or in I as [I|I]; [|auto]. destruct (P' y I); [auto|right; unfold between in *; lia].
    + split; [|split; [|split; [|split]]]; cbn [stray frees binders tame as_predicates].
      * intros y I. apply in_without in I as [I D]. auto.
      * intros y I. destruct (Fr y I) as [K|K]; [auto|right; unfold between in *; lia].
      * intros y [<-|I]; [unfold between in *; lia|]. specialize (Bi y I); unfold between in *; lia.
      * rewrite T. destruct q; auto.
      * exact P0.
  - destruct B as (-> & V & W). cbn [wrapped]. split; [|split; [|split; [|split]]].
    + intros y I. specialize (A y I). rewrite !in_app_iff in *. destruct A as [A|[A|[A|A]]]; auto. specialize (V y A). rewrite in_app_iff in V. destruct V; auto.
    + intros y I. destruct (Fr y I) as [K|K]; [|right; unfold between in *; lia]. apply in_app_or in K as [K|K]; [right; specialize (W y K); unfold between in *; lia|auto].
    + intros y I. specialize (Bi y I). unfold between in *; lia.
    + exact T.
    + intros y I. destruct (P y I); [auto|right; unfold between in *; lia].
Qed.

(** That [n] is the clause [F]. *)
Lemma clause_facts F n : tame F = true -> (forall x, In x (loose F) -> x < n) -> ~ In (S n) (as_predicates F) ->
  tame (is_clause n (S n) F) = true /\ own n [] (is_clause n (S n) F) = true /\ incl (stray (is_clause n (S n) F)) (n :: stray F) /\
  frees (is_clause n (S n) F) = frees F /\ incl (binders (is_clause n (S n) F)) (S n :: binders F) /\ as_predicates (is_clause n (S n) F) = as_predicates F.
Proof.
  intros T L P. unfold is_clause, being, named. split; [|split; [|split; [|split; [|split]]]].
  - cbn -[Nat.eqb]. rewrite T. cbn -[Nat.eqb]. rewrite andb_true_r. apply not_among. rewrite app_nil_r. exact P.
  - assert (forall m, m >= n -> ~ In m (loose F)) as Q by (intros m G I; specialize (L m I); lia).
    cbn -[Nat.eqb loose_t apart]. rewrite !Nat.eqb_refl. cbn [andb]. apply apart_spec. cbn [loose_t]. intros x [<-|[<-|[]]]; apply Q; lia.
  - cbn -[Nat.eqb]. intros y I. apply in_app_or in I as [I|[<-|[]]]; [|now left]. rewrite Nat.eqb_refl in I. cbn in I. apply in_without in I as [I _]. rewrite app_nil_r in I. now right.
  - cbn. now rewrite !app_nil_r.
  - cbn. intros y I. rewrite !app_nil_r in I. exact I.
  - cbn. now rewrite !app_nil_r.
Qed.

Section Proof.
Variable U : unicode.
Variable ol : list (N * N).
Variable links : bool.
Notation fo := (first_order U ol).
Notation ord := (orderly U ol links).

Definition args_ok (g : scene) (t : told) (a : list (thing * nat)) : Prop :=
  (forall x, In x (vars_of a) -> In x (counted_in g ++ hoa_in g ++ outs t)) /\ (forall x, In x (frees_of a) -> x < n_next t) /\
  (links = true \/ forall v k, In (v, k) a -> k = 0).

Lemma no_args g t : args_ok g t [].
Proof. split; [intros x []|split; [intros x []|right; intros v k []]]. Qed.
Lemma args_grow g t t' a : grows t t' -> args_ok g t a -> args_ok g t' a.
Proof.
  intros (L & I & _) (A & B & C). split; [|split; [|exact C]].
  - intros x J. specialize (A x J). apply in_app_or in A as [A|A]; [apply in_or_app; now left|]. apply in_or_app; right. apply in_app_or in A as [A|A]; [apply in_or_app; now left|]. apply in_or_app; right. auto.
  - intros x J. specialize (B x J). lia.
Qed.
Lemma args_bound g t b v g' t' a pos : bind_ok g t b v g' t' -> grows t t' -> okay g t -> links = true \/ pos = 0 -> args_ok g t a ->
  args_ok g' t' a /\ args_ok g' t' (a ++ [(v, pos)]).
Proof.
  intros B G O Ps H. apply (args_grow _ _ _ _ G) in H. assert (A' : args_ok g' t' a).
  { destruct H as (A & Fr & Z). split; [|split; [exact Fr|exact Z]]. intros x I. specialize (A x I). unfold hoa_in. rewrite (bound_hoa _ _ _ _ _ _ B). fold (hoa_in g).
    apply in_app_or in A as [A|A]; [apply in_or_app; left; now apply (bound_counted _ _ _ _ _ _ B)|apply in_or_app; right; exact A]. }
  split; [exact A'|]. destruct A' as (A & Fr & Z). split; [|split].
  - unfold vars_of in *. intros x I. rewrite flat_map_app in I. apply in_app_or in I as [I|I]; [auto|]. cbn in I. rewrite app_nil_r in I.
    destruct b as [[[q y] oR]|]; cbn in B.
    + destruct B as ((f & ->) & _ & _ & _ & E & _). destruct I as [<-|[]]. apply in_or_app; left. unfold counted_in. rewrite E. now left.
    + destruct B as (-> & V & _). specialize (V x I). apply in_app_or in V as [V|V]; [|apply in_or_app; right; apply in_or_app; now right].
      apply in_app_or in V as [V|V]; [apply in_or_app; left; now apply (k_names _ _ O)|apply in_or_app; right; apply in_or_app; now left].
  - unfold frees_of in *. intros x I. rewrite flat_map_app in I. apply in_app_or in I as [I|I]; [auto|]. cbn in I. rewrite app_nil_r in I.
    destruct b as [[[q y] oR]|]; cbn in B.
    + destruct B as ((f & ->) & _). destruct I.
    + destruct B as (-> & _ & V). specialize (V x I). unfold between in V. lia.
  - destruct Z as [Z|Z]; [now left|]. destruct Ps as [Ps|Ps]; [now left|right]. intros w k I. apply in_app_or in I as [I|[[= <- <-]|[]]]; [eauto|exact Ps].
Qed.
Lemma args_lt g t a x : okay g t -> fine t -> args_ok g t a -> In x (vars_of a) -> x < n_next t.
Proof.
  intros O Fi (A & _ & _) I. specialize (A x I). apply in_app_or in A as [A|A]; [eapply counted_lt; eauto|]. apply in_app_or in A as [A|A]; [|now apply (o_lt _ Fi)].
  apply (avail_lt g t x O). apply in_or_app. now right.
Qed.
(** All the variables of what is said are older than what comes next. *)
Lemma said_lt g t a F t' x : okay g t -> fine t -> fine t' -> grows t t' -> args_ok g t a -> said g t (vars_of a) (frees_of a) F t' -> In x (loose F) -> x < n_next t'.
Proof.
  intros O Fi Fi' G A (S0 & Fr & _) I. destruct G as (L & _ & _). apply (proj1 loose_split) in I as [I|I].
  - specialize (S0 x I). apply in_app_or in S0 as [S0|S0]; [pose proof (avail_lt g t x O S0); lia|]. apply in_app_or in S0 as [S0|S0]; [now apply (o_lt _ Fi')|].
    pose proof (args_lt g t a x O Fi A S0). lia.
  - destruct (Fr x I) as [K|K]; [|unfold between in K; lia]. pose proof (proj1 (proj2 A) x K). lia.
Qed.
Lemma said_clause g t a F t' : okay g t -> fine t -> fine t' -> grows t t' -> args_ok g t a -> said g t (vars_of a) (frees_of a) F t' ->
  let n := n_next t' in let R := is_clause n (S n) F in
  tame R = true /\ own n [] R = true /\ incl (stray R) (n :: stray F) /\ frees R = frees F /\ incl (binders R) (S n :: binders F) /\ as_predicates R = as_predicates F.
Proof.
  intros O Fi Fi' G A S0 n R. apply clause_facts.
  - apply S0.
  - intros x I. eapply said_lt; eassumption.
  - intros I. destruct S0 as (_ & _ & _ & _ & P). destruct (P _ I) as [K|K]; [|unfold between in K; lia]. pose proof (names_lt g t _ O K). destruct G as (L & _). lia.
Qed.
(** A clause that mentions nothing that counts can be bound outside. *)
Lemma clause_outside g t a F t' : okay g t -> fine t -> fine t' -> grows t t' -> args_ok g t a -> shown_hoa g -> said g t (vars_of a) (frees_of a) F t' ->
  free_in g F = false ->
  let n := n_next t' in let t2 := bound_outside (up_to t' (S (S n))) n (is_clause n (S n) F) in fine t2 /\ grows t t2 /\ grows t' t2.
Proof.
  intros O Fi Fi' G A Sh S0 Fr n t2. destruct (said_clause g t a F t' O Fi Fi' G A S0) as (T & Ow & St & _ & _ & _).
  assert (G2 : grows t' t2).
  { apply grows_bound; [apply grows_up; subst n; lia|]. unfold between, up_to. cbn. subst n. lia. }
  split; [|split; [eapply grows_trans; eassumption|exact G2]]. apply fine_bound; [apply fine_up; [subst n; lia|exact Fi']|cbn; subst n; lia| |exact T|exact Ow].
  intros x I. destruct (St x I) as [<-|K]; [now left|right]. change (In x (outs t')). pose proof (proj1 S0 x K) as J.
  assert (C : In x (counted_in g) -> False) by (intros C; exact (not_free g F x Fr C K)).
  apply in_app_or in J as [J|J].
  - apply in_app_or in J as [J|J]; [destruct C; now apply (k_names _ _ O)|]. unfold hoa_in in J. destruct (v_hoa g) as [y|] eqn:E; [|destruct J].
    destruct J as [<-|[]]. destruct C. auto.
  - apply in_app_or in J as [J|J]; [exact J|]. pose proof (proj1 A x J) as V. apply in_app_or in V as [V|V]; [destruct (C V)|].
    apply in_app_or in V as [V|V]; [|destruct G as (_ & I2 & _); auto]. unfold hoa_in in V. destruct (v_hoa g) as [y|] eqn:E; [|destruct V]. destruct V as [<-|[]]. destruct C. auto.
Qed.

(** ** The claims *)

Definition all_of (f : node -> bool) (ts : list node) : Prop := forallb f ts = true.
Definition P_st g t a n F t' : Prop := ord n = true -> okay g t -> fine t -> args_ok g t a -> (shown_hoa g \/ fo n = true) ->
  fine t' /\ grows t t' /\ said g t (vars_of a) (frees_of a) F t' /\ (calm_statement n = true -> calm F = true).
Definition P_pr g t n P t' : Prop := ord n = true -> okay g t -> fine t -> (shown_hoa g \/ fo n = true) ->
  fine t' /\ grows t t' /\ each (prop_ok g t t') P /\ (fo n = true -> each (fun p => incl (stray_p p) (bound_names g ++ outs t')) P) /\
  (no_abstraction n = true -> each a_word P) /\ (worded U ol n = true -> each no_vars P) /\
  (forall x f, x < n_next t -> ~ In x (avail g) -> ~ In x (outs t) -> own x [] (said_of P (Item (Var (Bound x f)) Nil)) = true).
Definition P_fr g t a st (keep : bool) ts F ts' t' : Prop := ord st = true -> all_of ord ts -> okay g t -> fine t -> args_ok g t a ->
  (shown_hoa g \/ (fo st = true /\ all_of fo ts)) ->
  fine t' /\ grows t t' /\ said g t (vars_of a) (frees_of a) F t' /\ all_of ord ts' /\ (all_of fo ts -> all_of fo ts') /\
  (calm_statement st = true -> all_of calm_term ts -> calm F = true).
Definition P_po g t (s : string) x n F t' : Prop := ord n = true -> okay g t -> fine t -> shown_hoa g -> x < n_next t -> ~ In x (avail g) -> ~ In x (outs t) ->
  fine t' /\ grows t t' /\ said g t [x] [] F t' /\
  (forall z, z < n_next t -> ~ In z (avail g) -> ~ In z (outs t) -> own x [z] F = true).
Definition related_ok g t a : Prop :=
  match a with ToVar x => True | ToRest b st _ ts => args_ok g t b /\ ord st = true /\ all_of ord ts end.
Definition rvars a : list nat := match a with ToVar x => [x] | ToRest b _ _ _ => vars_of b end.
Definition rfrees a : list nat := match a with ToVar x => [] | ToRest b _ _ _ => frees_of b end.
Definition P_re g t n a F ts t' : Prop := ord n = true -> okay g t -> fine t -> shown_hoa g -> related_ok g t a ->
  fine t' /\ grows t t' /\ said g t (rvars a) (rfrees a) F t' /\ all_of ord ts /\ (calm_term n = true -> calm F = true).
Definition P_rb g t p a n F ts t' : Prop := ord p = true -> ord n = true -> okay g t -> fine t -> shown_hoa g -> related_ok g t a ->
  fine t' /\ grows t t' /\ said g t (rvars a) (rfrees a) F t' /\ all_of ord ts /\ (no_abstraction p = true -> calm F = true).
Definition P_mo g t n x F t' : Prop := ord n = true -> okay g t -> fine t -> shown_hoa g ->
  fine t' /\ grows t t' /\ said g t [x] [] F t' /\ (calm_term n = true -> calm F = true).
Definition P_rf g t n b v g' t' : Prop := ord n = true -> okay g t -> fine t -> (shown_hoa g \/ fo n = true) ->
  fine t' /\ grows t t' /\ bind_ok g t b v g' t'.
Definition P_sd g t f q p rel b v g' t' : Prop := P_rf g t (NPredArg f q p rel) b v g' t'.
Definition P_li g t x rel R t' : Prop := match rel with None => True | Some r => ord r = true end -> okay (about g x) t -> fine t ->
  (shown_hoa (about g x) \/ match rel with None => True | Some r => fo r = true end) ->
  fine t' /\ grows t t' /\ match R with None => True | Some R => said (about g x) t [] [] R t' end.
Definition P_cl g t n F t' : Prop := ord n = true -> okay g t -> fine t -> (shown_hoa g \/ fo n = true) ->
  fine t' /\ grows t t' /\ said g t [] [] F t'.

(** ** Statements and predicates *)

Ltac parts H := repeat match type of H with _ && _ = true => let H' := fresh "A" in apply andb_prop in H as [H H'] end.

Lemma worded_facts : forall n, worded U ol n = true -> ord n = true /\ fo n = true /\ no_abstraction n = true.
Proof.
  fix IH 1. intros n. destruct n; try discriminate; cbn [worded]; intros W.
  - apply andb_prop in W as [W1 W2]. destruct (IH n1 W1) as (_ & F1 & A1), (IH n2 W2) as (_ & F2 & A2). cbn. now rewrite W1, W2, F1, F2, A1, A2.
  - cbn [orderly first_order no_abstraction]. unfold name_word in *. destruct (is_variable U ol (NWordPredicate w)); [discriminate|]. rewrite W. apply andb_prop in W as [-> _]. auto.
  - destruct k; try discriminate. apply andb_prop in W as [W1 W2]. destruct (IH n1 W1) as (O1 & F1 & A1), (IH n2 W2) as (O2 & F2 & A2). cbn. now rewrite O1, O2, F1, F2, A1, A2.
Qed.

Lemma bare_case g t a p na P t' l : P_pr g t p P t' -> placed a l -> P_st g t a (NPredication p None na) (said_of P (row_of l)) t'.
Proof.
  intros IH Pl O K Fi A Op. cbn in O. rewrite andb_true_r in O. apply andb_prop in O as [Li O]. cbn [first_order] in Op. rewrite andb_true_r in Op.
  destruct (IH O K Fi Op) as (Fi' & G & E & _ & W & _ & _). split; [exact Fi'|]. split; [exact G|]. split.
  - apply said_row; [exact E| |].
    + intros v I. destruct (placed_in a l v Pl I) as (k & J). split; intros x X.
      * apply in_or_app; right. apply in_or_app; right. apply in_flat_map. exists (v, k). auto.
      * left. apply in_flat_map. exists (v, k). auto.
    + destruct A as (_ & _ & [Lk|Z]); [|left; exact (placed_whole a l Pl Z)]. right. apply W. now rewrite Lk in Li.
  - cbn. rewrite andb_true_r. intros N. apply calm_words. auto.
Qed.
Lemma joined_case g t a f m ru l r c F G t1 t2 : P_st g t a l F t1 -> P_st g t1 a r G t2 -> P_st g t a (NCoP CStatement f m ru l r) (Joined c F G) t2.
Proof.
  intros IH1 IH2 O K Fi A Op. cbn in O. apply andb_prop in O as [O1 O2]. cbn [first_order andb] in Op.
  destruct (IH1 O1 K Fi A) as (Fi1 & G1 & S1 & _); [destruct Op as [Op|Op]; [auto|right; apply andb_prop in Op; tauto]|].
  destruct (IH2 O2 (okay_grows _ _ _ G1 K) Fi1 (args_grow _ _ _ _ G1 A)) as (Fi2 & G2 & S2 & _); [destruct Op as [Op|Op]; [auto|right; apply andb_prop in Op; tauto]|].
  split; [exact Fi2|]. split; [eapply grows_trans; eassumption|]. split; [|reflexivity]. now apply (said_joined _ _ _ _ _ _ _ t1).
Qed.

Lemma serial_words p q : each no_vars (of_plain p) -> each no_vars (of_plain q) ->
  each (fun r => no_vars r /\ a_word r) (of_plain (serial p q)).
Proof.
  induction p as [a|c p1 IH1 p2 IH2]; cbn; [|intros [A B] C; auto]. intros (s & E & Na) H. injection E as <-. induction q as [b|c q1 IH1 q2 IH2]; cbn in *.
  - destruct H as (s & E & Nb). injection E as <-. split; exists (Serial a b); (split; [reflexivity|]); [cbn; now rewrite Na, Nb|discriminate].
  - destruct H as [H1 H2]. auto.
Qed.
Lemma own_words P x f : each a_word P -> own x [] (said_of P (Item (Var (Bound x f)) Nil)) = true.
Proof. intros W. apply calm_own, calm_words, W. Qed.

Lemma variable_case g t w v x i : is_variable U ol (NWordPredicate w) = Some v -> looked_up (v_vars g) v (n_next t) = (x, i) ->
  P_pr g t (NWordPredicate w) (Single (Simple (Unnamed x))) (up_to t i).
Proof.
  intros V L O K Fi Op.
  assert (I : (x = Free (n_next t) /\ i = S (n_next t)) \/ (exists y f, x = Bound y f /\ In y (bound_names g) /\ i = n_next t)).
  { unfold looked_up in L. destruct (find _ (v_vars g)) as [[v' z]|] eqn:E; injection L as <- <-; [right|left; auto].
    apply find_some in E as [E _]. exists z, false. split; [reflexivity|]. split; [|reflexivity]. unfold bound_names. apply in_map_iff. exists (v', z). auto. }
  assert (Ge : n_next t <= i) by (destruct I as [(_ & ->)|(y & f & _ & _ & ->)]; lia).
  split; [now apply fine_up|]. split; [now apply grows_up|]. split; [|split; [|split; [|split]]].
  - cbn [each]. split; [|split; [|split; [|split; [|split]]]]; cbn.
    + intros y J. destruct I as [(-> & _)|(z & f & -> & N & _)]; [destruct J|]. destruct J as [<-|[]]. apply in_or_app; left. apply in_or_app; now left.
    + intros y J. destruct I as [(-> & ->)|(z & f & -> & N & _)]; [|destruct J]. destruct J as [<-|[]]. unfold between; cbn; lia.
    + intros y [].
    + reflexivity.
    + discriminate.
    + intros y J. destruct I as [(-> & ->)|(z & f & -> & N & _)]; cbn in J; destruct J as [<-|[]]; [right; unfold between; cbn; lia|now left].
  - intros _. cbn. intros y J. destruct I as [(-> & _)|(z & f & -> & N & _)]; [destruct J|]. destruct J as [<-|[]]. apply in_or_app; now left.
  - intros _. exists (Unnamed x). split; [reflexivity|discriminate].
  - cbn [worded]. unfold name_word. rewrite V. discriminate.
  - reflexivity.
Qed.
Lemma named_case g t w : is_variable U ol (NWordPredicate w) = None ->
  P_pr g t (NWordPredicate w) (Single (Simple (Named (word_pred U (w_t w))))) t.
Proof.
  intros V O K Fi Op. cbn [orderly] in O. rewrite V in O. pose proof O as N. unfold name_word in N. rewrite V in N. apply andb_prop in N as [_ N].
  assert (W : no_vars (Simple (Named (word_pred U (w_t w))))) by (eexists; split; reflexivity).
  assert (W2 : a_word (Simple (Named (word_pred U (w_t w))))).
  { eexists; split; [reflexivity|]. intros E. injection E as E. rewrite E in N. discriminate. }
  split; [exact Fi|]. split; [apply grows_refl|]. split; [now apply no_vars_ok|]. split; [intros _ y []|]. split; [auto|]. split; [auto|]. intros x f _ _ _. now apply (own_words (Single _)).
Qed.
Lemma serial_case g t l r P Q p q t1 t2 : P_pr g t l P t1 -> P_pr g t1 r Q t2 -> plainly P = Some p -> plainly Q = Some q ->
  P_pr g t (NSerial l r) (of_plain (serial p q)) t2.
Proof.
  intros IH1 IH2 E1 E2 O K Fi _. cbn in O. apply andb_prop in O as [W1 W2]. destruct (worded_facts l W1) as (O1 & F1 & _), (worded_facts r W2) as (O2 & F2 & _).
  destruct (IH1 O1 K Fi (or_intror F1)) as (Fi1 & G1 & _ & _ & _ & N1 & _).
  destruct (IH2 O2 (okay_grows _ _ _ G1 K) Fi1 (or_intror F2)) as (Fi2 & G2 & _ & _ & _ & N2 & _).
  specialize (N1 W1). specialize (N2 W2). apply plainly_plain in E1, E2. subst P Q. pose proof (serial_words p q N1 N2) as S0.
  split; [exact Fi2|]. split; [eapply grows_trans; eassumption|]. split; [|split; [|split; [|split]]].
  - eapply each_mono; [|exact S0]. intros x [x1 _]. now apply no_vars_ok.
  - intros _. eapply each_mono; [|exact S0]. intros x [x1 _]. apply (no_vars_ok g t2 t2) in x1 as x2. destruct x1 as (s & -> & Ns). cbn. intros y I.
    exfalso. assert (In y (numbers_s s)); [|rewrite Ns in *; auto]. clear - I. induction s as [n|v|p IHp q IHq]; cbn in *; [tauto|destruct v; cbn in *; tauto|]. rewrite in_app_iff in *. tauto.
  - intros _. eapply each_mono; [|exact S0]. intros y [A B]; assumption.
  - intros _. eapply each_mono; [|exact S0]. intros y [A B]; assumption.
  - intros x f _ _ _. apply own_words. eapply each_mono; [|exact S0]. intros y [A B]; assumption.
Qed.

(** The property of being a clause or a quotation. *)
Lemma being_case g t t' a n k (L : forall x, In x (loose_t a) -> x < k) : n_next t <= k ->
  fine t' -> grows t t' -> k = n_next t' -> okay g t -> (forall x, In x (stray_t a) -> In x (avail g ++ outs t')) ->
  (forall x, In x (frees_t a) -> between t t' x) -> (forall x, In x (binders_t a) -> between t t' x) -> tame_t a = true ->
  (forall x, In x (as_predicates_t a) -> In x (bound_names g) \/ between t t' x) -> fo n = false -> no_abstraction n = false -> worded U ol n = false ->
  fine (up_to t' (S k)) /\ grows t (up_to t' (S k)) /\ each (prop_ok g t (up_to t' (S k))) (Single (being k a)) /\
  (fo n = true -> each (fun p => incl (stray_p p) (bound_names g ++ outs (up_to t' (S k)))) (Single (being k a))) /\
  (no_abstraction n = true -> each a_word (Single (being k a))) /\ (worded U ol n = true -> each no_vars (Single (being k a))) /\
  (forall x f, x < n_next t -> ~ In x (avail g) -> ~ In x (outs t) -> own x [] (said_of (Single (being k a)) (Item (Var (Bound x f)) Nil)) = true).
Proof.
  intros Lk Fi G Ek K St Fr Bi T Pr N1 N2 N3. assert (G' : grows t (up_to t' (S k))) by (eapply grows_trans; [exact G|apply grows_up; lia]).
  split; [apply fine_up; [lia|exact Fi]|]. split; [exact G'|]. split; [|split; [|split; [|split]]]; try congruence.
  - cbn [each]. unfold prop_ok, being, named. split; [|split; [|split; [|split; [|split]]]].
    + cbn -[Nat.eqb]. intros x I. rewrite Nat.eqb_refl in I. cbn in I. apply in_without in I as [I _]. rewrite app_nil_r in I. exact (St x I).
    + cbn. intros x I. rewrite app_nil_r in I. specialize (Fr x I). unfold between in *. cbn. lia.
    + cbn. intros x [<-|I]; [unfold between; cbn; lia|]. rewrite !app_nil_r in I. specialize (Bi x I). unfold between in *. cbn. lia.
    + cbn. now rewrite T.
    + intros y f G0 E. injection E as <- <- <-. cbn. rewrite app_nil_r. intros I. destruct (Pr _ I) as [J|J]; [pose proof (names_lt g t _ K J); lia|unfold between in J; lia].
    + cbn. intros x I. rewrite !app_nil_r in I. destruct (Pr x I) as [J|J]; [now left|right; unfold between in *; cbn; lia].
  - intros x f Lx Nx Ox. cbn -[Nat.eqb loose_t apart]. rewrite !Nat.eqb_refl. cbn [andb]. apply apart_spec. intros y [<-|[<-|[]]] I.
    + specialize (L _ I). lia.
    + assert (J : In x (stray_t a) \/ In x (frees_t a)) by (apply (proj1 (proj2 (proj2 loose_split))); exact I). destruct J as [J|J].
      * specialize (St x J). apply in_app_or in St as [St|St]; [auto|]. destruct G as (_ & _ & O). destruct (O x St) as [Z|Z]; [auto|unfold between in Z; lia].
      * specialize (Fr x J). unfold between in Fr. lia.
Qed.
Lemma quoted_case g t n s full : fo n = false -> no_abstraction n = false -> worded U ol n = false ->
  P_pr g t n (Single (being (n_next t) (Quoted s full))) (up_to t (S (n_next t))).
Proof.
  intros N1 N2 N3 O K Fi _. apply being_case; try assumption; try reflexivity; try (intros x []). apply grows_refl.
Qed.
Lemma clause_case g t p F t' n : P_st g t [] p F t' -> ord n = ord p -> fo n = false -> no_abstraction n = false -> worded U ol n = false ->
  P_pr g t n (Single (being (n_next t') (That F))) (up_to t' (S (n_next t'))).
Proof.
  intros IH E N1 N2 N3 O K Fi Op. rewrite E in O. destruct Op as [Sh|Op]; [|congruence].
  destruct (IH O K Fi (no_args g t) (or_introl Sh)) as (Fi' & G & S0 & _). pose proof S0 as (St & Fr & Bi & T & Pr).
  apply being_case; try assumption; try reflexivity.
  - intros x I. exact (said_lt g t [] F t' x K Fi Fi' G (no_args g t) S0 I).
  - apply G.
  - intros x I. specialize (St x I). cbn in St. rewrite app_nil_r in St. exact St.
  - intros x I. destruct (Fr x I) as [[]|J]. exact J.
Qed.
Lemma li_case g t li st F t' : P_st g t [] st F t' -> P_pr g t (NLU LPredicate li st) (Single (Abstract F)) t'.
Proof.
  intros IH O K Fi Op. destruct Op as [Sh|Op]; [|discriminate]. cbn in O. apply andb_prop in O as [C O].
  destruct (IH O K Fi (no_args g t) (or_introl Sh)) as (Fi' & G & (St & Fr & Bi & T & Pr) & _).
  assert (NL : forall y f G0, F <> Binds QLambda y f G0) by (intros y f G0 ->; discriminate T).
  split; [exact Fi'|]. split; [exact G|]. split; [|split; [|split; [|split]]]; try discriminate.
  - cbn [each]. split; [|split; [|split; [|split; [|split]]]]; cbn [stray_p frees_p binders_p].
    + intros x I. specialize (St x I). cbn in St. rewrite app_nil_r in St. exact St.
    + intros x I. destruct (Fr x I) as [[]|J]. exact J.
    + exact Bi.
    + cbn [tame_p]. destruct F as [| |q y f G0|]; try exact T. destruct q; try exact T. destruct (NL y f G0 eq_refl).
    + intros y f G0 E. injection E as ->. destruct (NL y f G0 eq_refl).
    + cbn [as_predicates as_predicates_p as_predicates_r app]. intros x I. rewrite app_nil_r in I. auto.
  - intros x f _ _ _. cbn [said_of own]. destruct F as [| |q y f0 G0|]; try reflexivity. destruct q; try reflexivity. destruct (NL y f0 G0 eq_refl).
Qed.
(** Abstractions with a lambda. *)
Lemma lambda_facts g t n F t' : okay g t ->
  let y := n_next t in fine t' -> grows (up_to t (S y)) t' ->
  incl (stray F) (y :: avail g ++ outs t') -> (forall x, In x (frees F) -> between (up_to t (S y)) t' x) -> (forall x, In x (binders F) -> between (up_to t (S y)) t' x) ->
  tame F = true -> (forall x, In x (as_predicates F) -> In x (bound_names g) \/ between (up_to t (S y)) t' x) ->
  (forall x, x < n_next t -> ~ In x (avail g) -> ~ In x (outs t) -> own y [x] F = true) ->
  fo n = false -> no_abstraction n = false -> worded U ol n = false ->
  let P := Single (Abstract (Binds QLambda y false F)) in
  fine t' /\ grows t t' /\ each (prop_ok g t t') P /\ (fo n = true -> each (fun p => incl (stray_p p) (bound_names g ++ outs t')) P) /\
  (no_abstraction n = true -> each a_word P) /\ (worded U ol n = true -> each no_vars P) /\
  (forall x f, x < n_next t -> ~ In x (avail g) -> ~ In x (outs t) -> own x [] (said_of P (Item (Var (Bound x f)) Nil)) = true).
Proof.
  intros K y Fi G St Fr Bi T Pr Ow N1 N2 N3 P. assert (G' : grows t t') by (eapply grows_trans; [|exact G]; apply grows_up; subst y; lia). pose proof G as (L & _ & _). cbn in L.
  split; [exact Fi|]. split; [exact G'|]. split; [|split; [|split; [|split]]]; try congruence.
  - cbn [each P]. unfold between in *. cbn in Fr, Bi, Pr. split; [|split; [|split; [|split; [|split]]]]; unfold between; cbn [stray_p frees_p binders_p stray frees binders].
    + intros x I. apply in_without in I as [I D]. destruct (St x I); [congruence|assumption].
    + intros x I. specialize (Fr x I). subst y. lia.
    + intros x [<-|I]; [subst y; lia|]. specialize (Bi x I). subst y. lia.
    + exact T.
    + intros z f G0 E. injection E as <- <- <-. intros I. destruct (Pr _ I) as [J|J]; [|subst y; lia]. pose proof (names_lt g t _ K J). subst y. lia.
    + cbn [as_predicates as_predicates_p as_predicates_r app]. intros x I. rewrite app_nil_r in I. destruct (Pr x I); [auto|right; subst y; lia].
  - intros x f Lx Nx Ox. cbn [said_of own P]. rewrite Nat.eqb_refl. cbn [andb]. auto.
Qed.
Lemma lu_case g t lu st F t' : P_st (about (in_scope g (n_next t) true) (n_next t)) (up_to t (S (n_next t))) [] st F t' ->
  P_pr g t (NLU LPredicate lu st) (Single (Abstract (Binds QLambda (n_next t) false F))) t'.
Proof.
  intros IH O K Fi Op. cbn in O. apply andb_prop in O as [C O]. assert (Gu : grows t (up_to t (S (n_next t)))) by (apply grows_up; lia).
  assert (K2 : okay (about (in_scope g (n_next t) true) (n_next t)) (up_to t (S (n_next t)))).
  { apply okay_about; [|cbn; lia]. apply okay_in_scope; [|cbn; lia]. eapply okay_grows; eassumption. }
  destruct (IH O K2 (fine_up _ _ (Nat.le_succ_diag_r _) Fi) (no_args _ _) (or_introl (shown_about g (n_next t)))) as (Fi' & G & (St & Fr & Bi & T & Pr) & Ca).
  apply lambda_facts; auto.
  - intros x I. specialize (St x I). unfold avail in *. cbn in St. rewrite app_nil_r in St. rewrite !in_app_iff in *. cbn in *. rewrite !in_app_iff. unfold bound_names in *. cbn in *. tauto.
  - intros x I. destruct (Fr x I) as [[]|J]. exact J.
  - intros x _ _ _. apply calm_own. auto.
Qed.
Lemma po_case g t po ga arg s F t' : P_po (in_scope g (n_next t) true) (up_to t (S (n_next t))) s (n_next t) arg F t' ->
  P_pr g t (NPo po ga arg) (Single (Abstract (Binds QLambda (n_next t) false F))) t'.
Proof.
  intros IH O K Fi Op. destruct Op as [Sh|Op]; [|discriminate]. cbn in O.
  assert (K2 : okay (in_scope g (n_next t) true) (up_to t (S (n_next t)))).
  { apply okay_in_scope; [|cbn; lia]. eapply okay_grows; [apply grows_up; apply Nat.le_succ_diag_r|exact K]. }
  destruct (IH O K2 (fine_up _ _ (Nat.le_succ_diag_r _) Fi) (shown_in_scope _ _ _ Sh)) as (Fi' & G & (St & Fr & Bi & T & Pr) & Ow).
  - cbn; lia.
  - intros I. apply (avail_lt g t _ K) in I. lia.
  - intros I. apply (o_lt _ Fi) in I. lia.
  - apply lambda_facts; auto.
    + intros x I. specialize (St x I). change (avail (in_scope g (n_next t) true)) with (avail g) in St.
      apply in_app_or in St as [St|St]; [right; apply in_or_app; now left|]. apply in_app_or in St as [St|[<-|[]]]; [right; apply in_or_app; now right|now left].
    + intros x I. destruct (Fr x I) as [[]|J]. exact J.
    + intros x Lx Nx Ox. apply Ow; [cbn; lia|exact Nx|exact Ox].
Qed.
Lemma paired_case g t k f m ru l r c P Q t1 t2 : k = CPredicate \/ k = CContent -> P_pr g t l P t1 -> P_pr g t1 r Q t2 -> P_pr g t (NCoP k f m ru l r) (Pair c P Q) t2.
Proof.
  intros Ek IH1 IH2 O K Fi Op. assert (O' : ord l = true /\ ord r = true) by (cbn in O; destruct Ek as [-> | ->]; now apply andb_prop in O). destruct O' as [O1 O2].
  assert (Fo : fo (NCoP k f m ru l r) = true -> fo l = true /\ fo r = true) by (cbn; destruct Ek as [-> | ->]; cbn; [apply andb_prop|discriminate]).
  destruct (IH1 O1 K Fi) as (Fi1 & G1 & E1 & F1 & A1 & W1 & _); [tauto|].
  destruct (IH2 O2 (okay_grows _ _ _ G1 K) Fi1) as (Fi2 & G2 & E2 & F2 & A2 & W2 & _); [tauto|].
  split; [exact Fi2|]. split; [eapply grows_trans; eassumption|]. split; [|split; [|split; [|split]]].
  - split; [eapply each_mono; [|exact E1]|eapply each_mono; [|exact E2]]; intros p H.
    + exact (prop_ok_weaken g t t t1 t2 p (grows_refl _) G2 H).
    + exact (prop_ok_weaken g t t1 t2 t2 p G1 (grows_refl _) H).
  - intros H. apply Fo in H as [H1 H2]. split; [|auto]. eapply each_mono; [|exact (F1 H1)]. intros p I x X. specialize (I x X). apply in_app_or in I as [I|I]; apply in_or_app; [now left|right]. apply G2, I.
  - destruct Ek as [-> | ->]; [|discriminate]. cbn. intros H. apply andb_prop in H as [H1 H2]. auto.
  - destruct Ek as [-> | ->]; [|discriminate]. cbn. intros H. apply andb_prop in H as [H1 H2]. auto.
  - reflexivity.
Qed.

(** ** Terms *)

Lemma all_cons f n ts : all_of f (n :: ts) <-> f n = true /\ all_of f ts.
Proof. unfold all_of. cbn. apply andb_true_iff. Qed.
Lemma all_app f l m : all_of f (l ++ m) <-> all_of f l /\ all_of f m.
Proof. unfold all_of. rewrite forallb_app. apply andb_true_iff. Qed.
Lemma all_tl f ts : all_of f ts -> all_of f (tl ts).
Proof. destruct ts; [auto|]. intros H. now apply all_cons in H. Qed.

Lemma end_case g t a st (keep : bool) F t' : P_st g t (if keep then a else []) st F t' -> P_fr g t a st keep [] F [] t'.
Proof.
  intros IH O _ K Fi A Op. destruct (IH O K Fi) as (Fi' & G & S0 & C); [destruct keep; [exact A|apply no_args]|tauto|].
  split; [exact Fi'|]. split; [exact G|]. split; [|split; [reflexivity|split; [reflexivity|auto]]].
  destruct keep; [exact S0|]. eapply said_weaken; [apply grows_refl|apply grows_refl| | |exact S0]; intros x [].
Qed.
Lemma two_case g t a st (keep : bool) ts1 ts2 c F G r1 r2 t1 t2 ts : P_fr g t a st keep ts1 F r1 t1 -> P_fr g t1 a st keep ts2 G r2 t2 ->
  ord st = true -> all_of ord ts1 -> (all_of ord r1 -> all_of ord ts2) -> okay g t -> fine t -> args_ok g t a ->
  (shown_hoa g \/ (fo st = true /\ all_of fo ts)) -> (all_of fo ts -> all_of fo ts1) -> (all_of fo ts -> all_of fo r1 -> all_of fo ts2) ->
  fine t2 /\ grows t t2 /\ said g t (vars_of a) (frees_of a) (Joined c F G) t2 /\ all_of ord r2 /\ (all_of fo ts -> all_of fo r2).
Proof.
  intros IH1 IH2 O O1 O2 K Fi A Op F1 F2. destruct (IH1 O O1 K Fi A) as (Fi1 & G1 & S1 & R1 & X1 & _); [tauto|].
  destruct (IH2 O (O2 R1) (okay_grows _ _ _ G1 K) Fi1 (args_grow _ _ _ _ G1 A)) as (Fi2 & G2 & S2 & R2 & X2 & _); [tauto|].
  split; [exact Fi2|]. split; [eapply grows_trans; eassumption|]. split; [now apply (said_joined _ _ _ _ _ _ _ t1)|]. tauto.
Qed.
Lemma set_case g t a st (keep : bool) f m ru l r rest c F G ts1 ts2 t1 t2 :
  P_fr g t a st keep (l ++ rest) F ts1 t1 -> P_fr g t1 a st keep (r ++ rest) G ts2 t2 ->
  P_fr g t a st keep (NCoP CTermSet f m ru (NTerms l) (NTerms r) :: rest) (Joined c F G) (NCoP CTermSet f m ru (NTerms l) (NTerms r) :: rest) t2.
Proof.
  intros IH1 IH2 O Os K Fi A Op. pose proof Os as Os'. apply all_cons in Os' as [Ol Or]. cbn in Ol. apply andb_prop in Ol as [Ol Ol2].
  destruct (two_case g t a st keep _ _ c F G _ _ t1 t2 (NCoP CTermSet f m ru (NTerms l) (NTerms r) :: rest) IH1 IH2 O) as (Fi2 & G2 & S2 & _ & _); auto.
  - apply all_app. auto.
  - intros _. apply all_app. auto.
  - intros H. apply all_cons in H as [H H']. cbn in H. apply andb_prop in H as [H1 H2]. apply all_app. auto.
  - intros H _. apply all_cons in H as [H H']. cbn in H. apply andb_prop in H as [H1 H2]. apply all_app. auto.
  - split; [exact Fi2|]. split; [exact G2|]. split; [exact S2|]. auto.
Qed.
Lemma connected_case g t a st (keep : bool) n l r rest c F G ts1 ts2 t1 t2 :
  (ord n = true -> ord l = true /\ ord r = true) -> (fo n = true -> fo l = true /\ fo r = true) ->
  P_fr g t a st keep (l :: rest) F ts1 t1 -> P_fr g t1 a st keep (r :: tl ts1) G ts2 t2 ->
  P_fr g t a st keep (n :: rest) (Joined c F G) ts2 t2.
Proof.
  intros On Fn IH1 IH2 O Os K Fi A Op. pose proof Os as Os'. apply all_cons in Os' as [Ol Or]. apply On in Ol as [Ol Ol2].
  destruct (two_case g t a st keep _ _ c F G _ _ t1 t2 (n :: rest) IH1 IH2 O) as (Fi2 & G2 & S2 & R2 & X2); auto.
  - apply all_cons. auto.
  - intros H. apply all_cons. split; [exact Ol2|]. now apply all_tl.
  - intros H. apply all_cons in H as [H H']. apply Fn in H as [H1 H2]. apply all_cons. auto.
  - intros H H'. apply all_cons in H as [H _]. apply Fn in H as [H1 H2]. apply all_cons. split; [auto|]. now apply all_tl.
  - split; [exact Fi2|]. split; [exact G2|]. split; [exact S2|]. auto.
Qed.
Lemma argument_case g t a st (keep : bool) n n' rest b x g' F ts1 t1 t2 pos focus :
  (ord n' = true -> ord n = true) -> (fo n' = true -> fo n = true) -> (ord n' = true -> links = true \/ pos = 0) ->
  P_rf g t n b x g' t1 -> P_fr g' t1 (a ++ [(x, pos)]) st keep rest F ts1 t2 ->
  P_fr g t a st keep (n' :: rest) (wrapped b focus F) (n' :: ts1) t2.
Proof.
  intros On Fn Ps IH1 IH2 O Os K Fi A Op. pose proof Os as Os'. apply all_cons in Os' as [Ol Or].
  destruct (IH1 (On Ol) K Fi) as (Fi1 & G1 & B).
  { destruct Op as [Op|[_ Op]]; [auto|right]. apply all_cons in Op as [Op _]. auto. }
  destruct (args_bound g t b x g' t1 a pos B G1 K (Ps Ol) A) as [_ A'].
  destruct (IH2 O Or (bound_okay _ _ _ _ _ _ B G1 K) Fi1 A') as (Fi2 & G2 & S2 & R2 & X2 & C2).
  { destruct Op as [Op|[Os1 Op]]; [left; eapply bound_shown; eassumption|right]. apply all_cons in Op as [_ Op]. auto. }
  split; [exact Fi2|]. split; [eapply grows_trans; eassumption|]. split; [|split; [|split]].
  - eapply wrapped_said; [exact B|exact G1|exact G2|]. eapply said_weaken; [apply grows_refl|apply grows_refl| | |exact S2].
    + unfold vars_of. rewrite flat_map_app. cbn. rewrite app_nil_r. intros y I. apply in_app_or in I as [I|I]; apply in_or_app; auto.
    + unfold frees_of. rewrite flat_map_app. cbn. rewrite app_nil_r. intros y I. apply in_app_or in I as [I|I]; apply in_or_app; auto.
  - apply all_cons. auto.
  - intros H. apply all_cons in H as [H H']. apply all_cons. auto.
  - intros C H. apply all_cons in H as [_ H]. apply wrapped_calm. auto.
Qed.
Lemma not_fo_shown g n st rest : fo n = false -> (shown_hoa g \/ (fo st = true /\ all_of fo (n :: rest))) -> shown_hoa g.
Proof. intros N [H|[_ H]]; [exact H|]. apply all_cons in H as [H _]. congruence. Qed.
Lemma prep_not_fo n : is_prep n = true -> fo n = false.
Proof. destruct n; try discriminate; [reflexivity|]. destruct k; try discriminate. reflexivity. Qed.
Lemma adverb_not_fo n : is_adverb n = true -> fo n = false.
Proof. destruct n; try discriminate; [reflexivity|]. destruct k; try discriminate. reflexivity. Qed.

Lemma prep_case g t a st (keep : bool) n rest F ts1 t1 G ts2 t2 :
  is_prep n = true -> P_fr g t a st keep rest F ts1 t1 -> free_in g F = false ->
  P_re g (bound_outside (up_to t1 (S (S (n_next t1)))) (n_next t1) (is_clause (n_next t1) (S (n_next t1)) F)) n (ToVar (n_next t1)) G ts2 t2 ->
  P_fr g t a st keep (n :: rest) G (n :: ts1) t2.
Proof.
  intros Pn IH1 Fr IH2 O Os K Fi A Op. apply all_cons in Os as [On Or]. pose proof (not_fo_shown g n st rest (prep_not_fo n Pn) Op) as Sh.
  destruct (IH1 O Or K Fi A (or_introl Sh)) as (Fi1 & G1 & S1 & R1 & _ & _).
  destruct (clause_outside g t a F t1 K Fi Fi1 G1 A Sh S1 Fr) as (Fi2 & G2 & G2').
  destruct (IH2 On (okay_grows _ _ _ G2 K) Fi2 Sh I) as (Fi3 & G3 & S3 & _ & C3).
  split; [exact Fi3|]. split; [eapply grows_trans; eassumption|]. split; [|split; [|split]].
  - destruct S3 as (St & Fr3 & Bi & T & Pr). pose proof G2 as (L2 & _ & _). split; [|split; [|split; [|split; [exact T|]]]].
    + intros x I0. specialize (St x I0). apply in_app_or in St as [St|St]; apply in_or_app; [now left|right]. apply in_app_or in St as [St|[<-|[]]]; apply in_or_app; left; [exact St|].
      apply (proj1 (proj2 G3)). unfold outs. cbn. rewrite map_app. apply in_or_app; right. now left.
    + intros x I0. destruct (Fr3 x I0) as [[]|J]. right. unfold between in *. lia.
    + intros x I0. specialize (Bi x I0). unfold between in *. lia.
    + intros x I0. destruct (Pr x I0) as [J|J]; [auto|right; unfold between in *; lia].
  - apply all_cons. auto.
  - intros H. apply all_cons in H as [H _]. rewrite (prep_not_fo n Pn) in H. discriminate.
  - intros _ H. apply all_cons in H as [H _]. auto.
Qed.
Lemma prep_free_case g t a st (keep : bool) n rest F ts1 t1 G ts2 t2 :
  is_prep n = true -> P_fr g t a st keep rest F ts1 t1 -> P_re g t1 n (ToRest a st keep ts1) G ts2 t2 ->
  P_fr g t a st keep (n :: rest) G (n :: ts2) t2.
Proof.
  intros Pn IH1 IH2 O Os K Fi A Op. apply all_cons in Os as [On Or]. pose proof (not_fo_shown g n st rest (prep_not_fo n Pn) Op) as Sh.
  destruct (IH1 O Or K Fi A (or_introl Sh)) as (Fi1 & G1 & S1 & R1 & _ & _).
  destruct (IH2 On (okay_grows _ _ _ G1 K) Fi1 Sh) as (Fi3 & G3 & S3 & R3 & C3).
  { split; [|auto]. eapply args_grow; eassumption. }
  split; [exact Fi3|]. split; [eapply grows_trans; eassumption|]. split; [|split; [|split]].
  - eapply said_weaken; [exact G1|apply grows_refl|apply incl_refl|apply incl_refl|exact S3].
  - apply all_cons. auto.
  - intros H. apply all_cons in H as [H _]. rewrite (prep_not_fo n Pn) in H. discriminate.
  - intros _ H. apply all_cons in H as [H _]. auto.
Qed.
Lemma adverb_case g t a st (keep : bool) n rest F ts1 t1 G t2 :
  is_adverb n = true -> P_fr g t a st keep rest F ts1 t1 -> free_in g F = false ->
  P_mo g (bound_outside (up_to t1 (S (S (n_next t1)))) (n_next t1) (is_clause (n_next t1) (S (n_next t1)) F)) n (n_next t1) G t2 ->
  P_fr g t a st keep (n :: rest) G (n :: ts1) t2.
Proof.
  intros Pn IH1 Fr IH2 O Os K Fi A Op. apply all_cons in Os as [On Or]. pose proof (not_fo_shown g n st rest (adverb_not_fo n Pn) Op) as Sh.
  destruct (IH1 O Or K Fi A (or_introl Sh)) as (Fi1 & G1 & S1 & R1 & _ & _).
  destruct (clause_outside g t a F t1 K Fi Fi1 G1 A Sh S1 Fr) as (Fi2 & G2 & G2').
  destruct (IH2 On (okay_grows _ _ _ G2 K) Fi2 Sh) as (Fi3 & G3 & S3 & C3).
  split; [exact Fi3|]. split; [eapply grows_trans; eassumption|]. split; [|split; [|split]].
  - destruct S3 as (St & Fr3 & Bi & T & Pr). pose proof G2 as (L2 & _ & _). split; [|split; [|split; [|split; [exact T|]]]].
    + intros x I0. specialize (St x I0). apply in_app_or in St as [St|St]; apply in_or_app; [now left|right]. apply in_app_or in St as [St|[<-|[]]]; apply in_or_app; left; [exact St|].
      apply (proj1 (proj2 G3)). unfold outs. cbn. rewrite map_app. apply in_or_app; right. now left.
    + intros x I0. destruct (Fr3 x I0) as [[]|J]. right. unfold between in *. lia.
    + intros x I0. specialize (Bi x I0). unfold between in *. lia.
    + intros x I0. destruct (Pr x I0) as [J|J]; [auto|right; unfold between in *; lia].
  - apply all_cons. auto.
  - intros H. apply all_cons in H as [H _]. rewrite (adverb_not_fo n Pn) in H. discriminate.
  - intros _ H. apply all_cons in H as [H _]. auto.
Qed.
(** The clause [F] bound around [G]. *)
Lemma clause_around g t a F t1 G t2 bv fv : okay g t -> fine t -> fine t1 -> grows t t1 -> args_ok g t a -> said g t (vars_of a) (frees_of a) F t1 ->
  grows (up_to t1 (S (S (n_next t1)))) t2 -> incl (vars_of a) bv -> incl (frees_of a) fv -> said (in_scope g (n_next t1) true) (up_to t1 (S (S (n_next t1)))) (n_next t1 :: bv) fv G t2 ->
  said g t bv fv (Limits QAll (n_next t1) false (is_clause (n_next t1) (S (n_next t1)) F) G) t2.
Proof.
  intros K Fi Fi1 G1 A S1 G2 Ib If S2. destruct (said_clause g t a F t1 K Fi Fi1 G1 A S1) as (T & Ow & St & Fr & Bi & Pr).
  destruct S1 as (St1 & Fr1 & Bi1 & _ & Pr1). destruct S2 as (St2 & Fr2 & Bi2 & T2 & Pr2). pose proof G1 as (L1 & _ & _). pose proof G2 as (L2 & O2 & _). cbn in L2, O2.
  unfold between in *. cbn in Fr2, Bi2, Pr2. split; [|split; [|split; [|split]]]; unfold between.
  - intros x I0. cbn [stray] in I0. apply in_without in I0 as [I0 D]. apply in_app_or in I0 as [I0|I0].
    + destruct (St x I0) as [E|J]; [congruence|]. specialize (St1 x J). apply in_app_or in St1 as [H|H]; apply in_or_app; [now left|right]. apply in_app_or in H as [H|H]; apply in_or_app; [left; apply O2, H|right; auto].
    + specialize (St2 x I0). change (avail (in_scope g (n_next t1) true)) with (avail g) in St2. apply in_app_or in St2 as [H|H]; apply in_or_app; [now left|right]. apply in_app_or in H as [H|[H|H]]; apply in_or_app; [now left|congruence|now right].
  - cbn [frees]. rewrite Fr. intros x I0. apply in_app_or in I0 as [I0|I0]; [destruct (Fr1 x I0); [auto|right; lia]|destruct (Fr2 x I0); [auto|right; lia]].
  - intros x I0. cbn [binders] in I0. destruct I0 as [<-|I0]; [lia|]. apply in_app_or in I0 as [I0|I0]; [|specialize (Bi2 x I0); lia]. destruct (Bi x I0) as [<-|J]; [lia|]. specialize (Bi1 x J). lia.
  - cbn [tame]. now rewrite T, Ow, T2.
  - cbn [as_predicates]. rewrite Pr. intros x I0. apply in_app_or in I0 as [I0|I0]; [destruct (Pr1 x I0); [auto|right; lia]|]. destruct (Pr2 x I0) as [J|J]; [left; exact J|right; lia].
Qed.
Lemma adverb_free_case g t a st (keep : bool) n rest F ts1 t1 G t2 :
  is_adverb n = true -> P_fr g t a st keep rest F ts1 t1 ->
  P_mo (in_scope g (n_next t1) true) (up_to t1 (S (S (n_next t1)))) n (n_next t1) G t2 ->
  P_fr g t a st keep (n :: rest) (Limits QAll (n_next t1) false (is_clause (n_next t1) (S (n_next t1)) F) G) (n :: ts1) t2.
Proof.
  intros Pn IH1 IH2 O Os K Fi A Op. apply all_cons in Os as [On Or]. pose proof (not_fo_shown g n st rest (adverb_not_fo n Pn) Op) as Sh.
  destruct (IH1 O Or K Fi A (or_introl Sh)) as (Fi1 & G1 & S1 & R1 & _ & _).
  assert (Gu : grows t1 (up_to t1 (S (S (n_next t1))))) by (apply grows_up; lia).
  assert (K2 : okay (in_scope g (n_next t1) true) (up_to t1 (S (S (n_next t1))))).
  { apply okay_in_scope; [|cbn; lia]. eapply okay_grows; [exact Gu|]. eapply okay_grows; eassumption. }
  destruct (IH2 On K2) as (Fi3 & G3 & S3 & C3); [apply fine_up; [lia|exact Fi1]|now apply shown_in_scope|].
  split; [exact Fi3|]. split; [eapply grows_trans; [exact G1|]; eapply grows_trans; eassumption|]. split; [|split; [|split]].
  - eapply clause_around; try eassumption; [apply incl_refl|apply incl_refl|]. refine (said_weaken _ _ _ _ _ _ _ _ _ _ (grows_refl _) (grows_refl _) _ _ S3); [intros x [<-|[]]; now left|intros x []].
  - apply all_cons. auto.
  - intros H. apply all_cons in H as [H _]. rewrite (adverb_not_fo n Pn) in H. discriminate.
  - intros _ H. apply all_cons in H as [H _]. cbn [calm]. auto.
Qed.

(** ** po, prepositions and adverbs *)

Lemma po_one_case g t s x n b v g' t' : P_rf g t n b v g' t' ->
  P_po g t s x n (wrapped b false (named s (Item (Var (Bound x false)) (Item (Var v) Nil)))) t'.
Proof.
  intros IH O K Fi Sh Lx Nx Ox. destruct (IH O K Fi (or_introl Sh)) as (Fi' & G & B). split; [exact Fi'|]. split; [exact G|]. split.
  - eapply wrapped_said; [exact B|exact G|apply grows_refl|]. change (named s (Item (Var (Bound x false)) (Item (Var v) Nil))) with (said_of (Single (Simple (Named s))) (row_of [Some (Bound x false); Some v])).
    apply said_row; [apply no_vars_ok; eexists; split; reflexivity| |left; intros [E|[E|[]]]; discriminate].
    intros w [E|[E|[]]]; injection E as <-; split; intros y I.
    + apply in_or_app; right. apply in_or_app; right. apply in_or_app; right. exact I.
    + destruct I.
    + apply in_or_app; right. apply in_or_app; right. apply in_or_app; now left.
    + left. apply in_or_app; now left.
  - intros z Lz Nz Oz. assert (New : forall y, y < n_next t -> ~ In y (avail g) -> ~ In y (outs t) -> ~ In y (avail g ++ outs t') /\ ~ between t t' y).
    { intros y Ly Ny Oy. split; [|unfold between; lia]. intros I. apply in_app_or in I as [I|I]; [auto|]. destruct G as (_ & _ & G). destruct (G y I) as [J|J]; [auto|unfold between in J; lia]. }
    assert (Eq : forall y, y = x \/ y = z -> ~ In y (loose_t (Var v))).
    { intros y E I. assert (Y : y < n_next t /\ ~ In y (avail g) /\ ~ In y (outs t)) by (destruct E as [-> | ->]; auto). destruct Y as (Y1 & Y2 & Y3). destruct (New y Y1 Y2 Y3) as [N1 N2]. cbn in I. destruct I as [I|[]].
      destruct b as [[[q y0] oR]|]; cbn in B.
      - destruct B as ((f & ->) & X & _). cbn in I. subst y0. unfold between in X. lia.
      - destruct B as (_ & V & W). destruct v as [w f|w]; cbn in *; subst w; [apply N1, V|apply N2, W]; now left. }
    assert (Own : own x [z] (named s (Item (Var (Bound x false)) (Item (Var v) Nil))) = true).
    { cbn -[Nat.eqb loose_t apart String.eqb]. rewrite Nat.eqb_refl. apply orb_true_intro. right. cbn [andb]. apply apart_spec. intros y [<-|[<-|[]]]; auto. }
    destruct b as [[[q y0] [R|]]|]; cbn [wrapped]; [|reflexivity|exact Own]. cbn [own]. apply orb_true_intro. right. apply andb_true_intro. split; [|exact Own].
    cbn in B. destruct B as (_ & X & _ & _ & _ & (St & Fr & Bi & _)). apply apart_spec. intros y E. assert (E' : y = x \/ y = z) by (destruct E as [<-|[<-|[]]]; auto).
    assert (Y : y < n_next t /\ ~ In y (avail g) /\ ~ In y (outs t)) by (destruct E' as [-> | ->]; auto). destruct Y as (Y1 & Y2 & Y3). destruct (New y Y1 Y2 Y3) as [N1 N2].
    intros [<-|I]; [auto|]. apply in_app_or in I as [I|I]; [|apply N2, Bi, I]. apply (proj1 loose_split) in I as [I|I]; [|apply N2, Fr, I]. destruct (St y I) as [<-|J]; auto.
Qed.
Lemma po_joined_case g t s x f m ru l r c F G t1 t2 : P_po g t s x l F t1 -> P_po g t1 s x r G t2 -> P_po g t s x (NCoP CArgument f m ru l r) (Joined c F G) t2.
Proof.
  intros IH1 IH2 O K Fi Sh Lx Nx Ox. cbn in O. parts O. destruct (IH1 A0 K Fi Sh Lx Nx Ox) as (Fi1 & G1 & S1 & _).
  destruct (IH2 A (okay_grows _ _ _ G1 K) Fi1 Sh) as (Fi2 & G2 & S2 & _).
  - destruct G1 as (L & _). lia.
  - exact Nx.
  - intros I. destruct G1 as (_ & _ & G1). destruct (G1 x I) as [J|J]; [auto|unfold between in J; lia].
  - split; [exact Fi2|]. split; [eapply grows_trans; eassumption|]. split; [|reflexivity]. now apply (said_joined _ _ _ _ _ _ _ t1).
Qed.
Lemma related_grow g t t' a : grows t t' -> related_ok g t a -> related_ok g t' a.
Proof. intros G. destruct a; cbn; [auto|]. intros (A & B & C). split; [eapply args_grow; eassumption|auto]. Qed.
Lemma related_rest g t a ts : related_ok g t a -> all_of ord ts -> related_ok g t (with_rest a ts).
Proof. destruct a; cbn; tauto. Qed.
Lemma rest_vars a ts : rvars (with_rest a ts) = rvars a /\ rfrees (with_rest a ts) = rfrees a.
Proof. destruct a; auto. Qed.
Lemma relates_joined_case g t f m ru l r c a F G ts1 ts2 t1 t2 : P_re g t l a F ts1 t1 -> P_re g t1 r (with_rest a ts1) G ts2 t2 ->
  P_re g t (NCoP CPreposition f m ru l r) a (Joined c F G) ts2 t2.
Proof.
  intros IH1 IH2 O K Fi Sh Rl. cbn in O. apply andb_prop in O as [O1 O2]. destruct (IH1 O1 K Fi Sh Rl) as (Fi1 & G1 & S1 & R1 & _).
  destruct (IH2 O2 (okay_grows _ _ _ G1 K) Fi1 Sh) as (Fi2 & G2 & S2 & R2 & _); [apply related_rest; [eapply related_grow; eassumption|exact R1]|].
  destruct (rest_vars a ts1) as [E1 E2]. rewrite E1, E2 in S2.
  split; [exact Fi2|]. split; [eapply grows_trans; eassumption|]. split; [now apply (said_joined _ _ _ _ _ _ _ t1)|]. auto.
Qed.
Lemma by_joined_case g t p f m ru l r c a F G ts1 ts2 t1 t2 : P_rb g t p a l F ts1 t1 -> P_rb g t1 p (with_rest a ts1) l G ts2 t2 ->
  P_rb g t p a (NCoP CArgument f m ru l r) (Joined c F G) ts2 t2.
Proof.
  intros IH1 IH2 Op O K Fi Sh Rl. cbn in O. parts O. destruct (IH1 Op A0 K Fi Sh Rl) as (Fi1 & G1 & S1 & R1 & _).
  destruct (IH2 Op A0 (okay_grows _ _ _ G1 K) Fi1 Sh) as (Fi2 & G2 & S2 & R2 & _); [apply related_rest; [eapply related_grow; eassumption|exact R1]|].
  destruct (rest_vars a ts1) as [E1 E2]. rewrite E1, E2 in S2.
  split; [exact Fi2|]. split; [eapply grows_trans; eassumption|]. split; [now apply (said_joined _ _ _ _ _ _ _ t1)|]. auto.
Qed.
Lemma pair_row x (v : thing) : Item (Var (Bound x false)) (Item (Var v) Nil) = row_of [Some (Bound x false); Some v].
Proof. reflexivity. Qed.
Lemma by_var_case g t p x n b v g' P t1 t2 : P_rf g t n b v g' t1 -> P_pr g' t1 p P t2 ->
  P_rb g t p (ToVar x) n (wrapped b false (said_of P (Item (Var (Bound x false)) (Item (Var v) Nil)))) [] t2.
Proof.
  intros IH1 IH2 Op O K Fi Sh _. destruct (IH1 O K Fi (or_introl Sh)) as (Fi1 & G1 & B).
  destruct (IH2 Op (bound_okay _ _ _ _ _ _ B G1 K) Fi1 (or_introl (bound_shown _ _ _ _ _ _ B Sh))) as (Fi2 & G2 & E & _ & W & _).
  split; [exact Fi2|]. split; [eapply grows_trans; eassumption|]. split; [|split; [reflexivity|intros N; apply wrapped_calm, calm_words; auto]].
  eapply wrapped_said; [exact B|exact G1|exact G2|]. rewrite pair_row. apply said_row; [exact E| |left; intros [E0|[E0|[]]]; discriminate].
  intros w [E0|[E0|[]]]; injection E0 as <-; split; intros y I.
  - apply in_or_app; right. apply in_or_app; right. apply in_or_app; right. exact I.
  - destruct I.
  - apply in_or_app; right. apply in_or_app; right. apply in_or_app; now left.
  - left. apply in_or_app; now left.
Qed.
Lemma by_rest_case g t p a st keep ts n b v g' F ts' P t1 t2 t3 : P_rf g t n b v g' t1 -> P_fr g' t1 a st keep ts F ts' t2 ->
  P_pr (in_scope g' (n_next t2) true) (up_to t2 (S (S (n_next t2)))) p P t3 ->
  P_rb g t p (ToRest a st keep ts) n
    (wrapped b false (Limits QAll (n_next t2) false (is_clause (n_next t2) (S (n_next t2)) F) (said_of P (Item (Var (Bound (n_next t2) false)) (Item (Var v) Nil))))) ts' t3.
Proof.
  intros IH1 IH2 IH3 Op O K Fi Sh (A & Ost & Ots). destruct (IH1 O K Fi (or_introl Sh)) as (Fi1 & G1 & B).
  pose proof (bound_okay _ _ _ _ _ _ B G1 K) as K1. pose proof (bound_shown _ _ _ _ _ _ B Sh) as Sh1.
  destruct (args_bound g t b v g' t1 a 0 B G1 K (or_intror eq_refl) A) as [A1 A2].
  destruct (IH2 Ost Ots K1 Fi1 A1 (or_introl Sh1)) as (Fi2 & G2 & S2 & R2 & _ & _).
  assert (Gu : grows t2 (up_to t2 (S (S (n_next t2))))) by (apply grows_up; lia).
  destruct (IH3 Op) as (Fi3 & G3 & E & _ & W & _).
  - apply okay_in_scope; [|cbn; lia]. eapply okay_grows; [exact Gu|]. eapply okay_grows; eassumption.
  - apply fine_up; [lia|exact Fi2].
  - left. now apply shown_in_scope.
  - assert (G23 : grows t1 t3) by (eapply grows_trans; [exact G2|]; eapply grows_trans; eassumption).
    split; [exact Fi3|]. split; [eapply grows_trans; eassumption|]. split; [|split; [exact R2|intros N; apply wrapped_calm; cbn [calm]; apply calm_words; auto]].
    eapply wrapped_said; [exact B|exact G1|exact G23|]. cbn [rvars rfrees].
    eapply (clause_around g' t1 a F t2 _ t3); try eassumption; [apply incl_appr, incl_refl|apply incl_appr, incl_refl|].
    rewrite pair_row. apply said_row; [exact E| |left; intros [E0|[E0|[]]]; discriminate].
    intros w [E0|[E0|[]]]; injection E0 as <-; split; intros y I.
    + apply in_or_app; right. apply in_or_app; right. destruct I as [<-|[]]. now left.
    + destruct I.
    + apply in_or_app; right. apply in_or_app; right. right. apply in_or_app; now left.
    + left. apply in_or_app; now left.
Qed.
Lemma modifies_case g t p x P t' : P_pr g t p P t' -> P_mo g t (NAdverb p) x (said_of P (Item (Var (Bound x false)) Nil)) t'.
Proof.
  intros IH O K Fi Sh. cbn in O. destruct (IH O K Fi (or_introl Sh)) as (Fi1 & G1 & E & _ & W & _). split; [exact Fi1|]. split; [exact G1|]. split; [|cbn; intros N; apply calm_words; auto].
  change (Item (Var (Bound x false)) Nil) with (row_of [Some (Bound x false)]). apply said_row; [exact E| |left; intros [E0|[]]; discriminate].
  intros w [E0|[]]; injection E0 as <-; split; intros y I; [|destruct I]. apply in_or_app; right. apply in_or_app; right. exact I.
Qed.
Lemma modifies_joined_case g t f m ru l r x c F G t1 t2 : P_mo g t l x F t1 -> P_mo g t1 r x G t2 -> P_mo g t (NCoP CAdverb f m ru l r) x (Joined c F G) t2.
Proof.
  intros IH1 IH2 O K Fi Sh. cbn in O. apply andb_prop in O as [O1 O2]. destruct (IH1 O1 K Fi Sh) as (Fi1 & G1 & S1 & _).
  destruct (IH2 O2 (okay_grows _ _ _ G1 K) Fi1 Sh) as (Fi2 & G2 & S2 & _). split; [exact Fi2|]. split; [eapply grows_trans; eassumption|]. split; [|reflexivity]. now apply (said_joined _ _ _ _ _ _ _ t1).
Qed.

(** ** Arguments *)

Lemma stray_said P l Z : each (fun p => incl (stray_p p) Z) P -> incl (stray (said_of P l)) (Z ++ stray_r l).
Proof.
  induction P as [p|c P1 IH1 P2 IH2]; cbn [each said_of stray].
  - intros H. apply incl_app; [now apply incl_appl|apply incl_appr, incl_refl].
  - intros [H1 H2]. apply incl_app; auto.
Qed.
(** What a relative clause about [x] says, where [x] is bound. *)
Lemma about_said g t x c F t' : said (about (in_scope g x c) x) t [] [] F t' ->
  incl (stray F) (x :: bound_names g ++ outs t') /\ (forall y, In y (frees F) -> between t t' y) /\ (forall y, In y (binders F) -> between t t' y) /\ tame F = true /\
  (forall y, In y (as_predicates F) -> In y (bound_names g) \/ between t t' y).
Proof.
  intros (St & Fr & Bi & T & Pr). split; [|split; [|split; [exact Bi|split; [exact T|exact Pr]]]].
  - intros y I0. specialize (St y I0). apply in_app_or in St as [H|H].
    + apply in_app_or in H as [H|[<-|[]]]; [right; apply in_or_app; now left|now left].
    + apply in_app_or in H as [H|[]]. right. apply in_or_app; now right.
  - intros y I0. destruct (Fr y I0) as [[]|J]. exact J.
Qed.
Lemma limit_weaken g t t1 x q R t' : grows t t1 -> limit_ok g t1 x q R t' -> limit_ok g t x q R t'.
Proof.
  intros (L & _) (A & B & C & D & E & F). split; [exact A|]. split; [|split; [|split; [exact D|split; [|exact F]]]].
  - intros y I0. specialize (B y I0). unfold between in *. lia.
  - intros y I0. specialize (C y I0). unfold between in *. lia.
  - intros y I0. destruct (E y I0); [auto|right; unfold between in *; lia].
Qed.
(** A description: a predicate and a relative clause. *)
Lemma described g t q c f P R0 t1 t' : let n := n_next t in okay g t -> fine t -> grows (up_to t (S n)) t1 -> grows t1 t' ->
  each (prop_ok g (up_to t (S n)) t1) P -> own n [] (said_of P (Item (Var (Bound n f)) Nil)) = true ->
  match R0 with None => True | Some R => said (about (in_scope g n c) n) t1 [] [] R t' end ->
  limit_ok g t n q (and_also (said_of P (Item (Var (Bound n f)) Nil)) R0) t'.
Proof.
  intros n K Fi G1 G2 E Ow HR. pose proof G1 as (L1 & _ & _). pose proof G2 as (L2 & O2 & _). cbn in L1.
  assert (S1 : said g t [n] [] (said_of P (Item (Var (Bound n f)) Nil)) t1).
  { change (Item (Var (Bound n f)) Nil) with (row_of [Some (Bound n f)]). apply said_row; [| |left; intros [E0|[]]; discriminate].
    - eapply each_mono; [|exact E]. intros p H. eapply prop_ok_weaken; [|apply grows_refl|exact H]. apply grows_up. subst n; lia.
    - intros w [E0|[]]; injection E0 as <-; split; intros y I0; [|destruct I0]. apply in_or_app; right. apply in_or_app; right. exact I0. }
  apply (said_weaken g t t [n] [] [n] [] _ t1 t' (grows_refl _) G2 (incl_refl _) (incl_refl _)) in S1. destruct S1 as (St & Fr & Bi & T & Pr).
  assert (St' : incl (stray (said_of P (Item (Var (Bound n f)) Nil))) (n :: avail g ++ outs t')).
  { intros y I0. specialize (St y I0). apply in_app_or in St as [H|H]; [right; apply in_or_app; now left|]. apply in_app_or in H as [H|[<-|[]]]; [right; apply in_or_app; now right|now left]. }
  destruct R0 as [R|]; cbn [and_also].
  - apply about_said in HR as (St2 & Fr2 & Bi2 & T2 & Pr2). unfold limit_ok, between in *. split; [|split; [|split; [|split; [|split]]]]; cbn [stray frees binders tame as_predicates].
    + apply incl_app; [exact St'|]. intros y I0. destruct (St2 y I0) as [H|H]; [now left|right]. apply in_app_or in H as [H|H]; apply in_or_app; [left; apply in_or_app; now left|now right].
    + intros y I0. apply in_app_or in I0 as [I0|I0]; [destruct (Fr y I0) as [[]|J]; exact J|]. specialize (Fr2 y I0). subst n. lia.
    + intros y I0. apply in_app_or in I0 as [I0|I0]; [exact (Bi y I0)|]. specialize (Bi2 y I0). subst n. lia.
    + now rewrite T, T2.
    + intros y I0. apply in_app_or in I0 as [I0|I0]; [exact (Pr y I0)|]. destruct (Pr2 y I0); [auto|right; subst n; lia].
    + reflexivity.
  - split; [exact St'|]. split; [intros y I0; destruct (Fr y I0) as [[]|J]; exact J|]. split; [exact Bi|]. split; [exact T|]. split; [exact Pr|]. auto.
Qed.
(** Something of what [v] is, with or without a relative clause. *)
Lemma some_of_ok g t t1 q n v R0 t' c : n < n_next t1 -> n_next t <= n -> okay g t -> fine t -> grows t t1 -> grows t1 t' -> (forall x, In x (of_var v) -> In x (avail g ++ outs t)) ->
  (forall x, In x (free_var v) -> between t t1 x) ->
  match R0 with None => True | Some R => said (about (in_scope g n c) n) t1 [] [] R t' end ->
  limit_ok g t n q (and_also (some_of n v) R0) t'.
Proof.
  intros Ln Ln2 K Fi G1 G2 V W HR. pose proof G1 as (L1 & O1 & _). pose proof G2 as (L2 & O2 & _).
  assert (St : incl (stray (some_of n v)) (n :: avail g ++ outs t')).
  { cbn. rewrite app_nil_r. intros y [<-|I0]; [now left|right]. specialize (V y I0). apply in_app_or in V as [H|H]; apply in_or_app; [now left|right]. auto. }
  assert (Fr : forall y, In y (frees (some_of n v)) -> between t t' y).
  { cbn. rewrite app_nil_r. intros y I0. specialize (W y I0). unfold between in *. lia. }
  destruct R0 as [R|]; cbn [and_also].
  - apply about_said in HR as (St2 & Fr2 & Bi2 & T2 & Pr2). unfold limit_ok, between in *. split; [|split; [|split; [|split; [|split]]]]; cbn [stray frees binders tame as_predicates].
    + apply incl_app; [exact St|]. intros y I0. destruct (St2 y I0) as [H|H]; [now left|right]. apply in_app_or in H as [H|H]; apply in_or_app; [left; apply in_or_app; now left|now right].
    + intros y I0. apply in_app_or in I0 as [I0|I0]; [exact (Fr y I0)|]. specialize (Fr2 y I0). lia.
    + intros y I0. apply in_app_or in I0 as [[]|I0]. specialize (Bi2 y I0). lia.
    + rewrite T2. reflexivity.
    + intros y I0. apply in_app_or in I0 as [[]|I0]. destruct (Pr2 y I0); [auto|right; lia].
    + reflexivity.
  - split; [exact St|]. split; [exact Fr|]. split; [intros y []|]. split; [reflexivity|]. split; [intros y []|reflexivity].
Qed.

Lemma seen_case g t f q p rel x : seen_at t (place p) = Some x -> P_sd g t f q p rel None (Bound x false) g t.
Proof.
  intros E O K Fi Op. split; [exact Fi|]. split; [apply grows_refl|]. split; [reflexivity|]. split; [|intros y []].
  intros y [<-|[]]. apply in_or_app; right. unfold seen_at in E. destruct (find _ (n_lifted t)) as [[k z]|] eqn:F; [|discriminate]. cbn in E. injection E as ->.
  apply find_some in F as [F _]. eapply (o_lifted _ Fi), F.
Qed.
Lemma quantifies_the w : quantifies_as U (Some w) = Some QThe -> has_text U w "ke" = true.
Proof.
  unfold quantifies_as, listed. cbn -[has_text]. destruct (has_text U w "ke") eqn:E; [reflexivity|]. cbn -[has_text].
  repeat match goal with |- context [has_text U w ?s] => destruct (has_text U w s); cbn -[has_text]; try discriminate end.
Qed.
Lemma quantifies_lambda w : quantifies_as U (Some w) = Some QLambda -> has_text U w "ja" = true.
Proof.
  unfold quantifies_as, listed. cbn -[has_text]. destruct (has_text U w "ke"); cbn -[has_text]; [discriminate|]. destruct (has_text U w "ja") eqn:E; [reflexivity|]. cbn -[has_text].
  repeat match goal with |- context [has_text U w ?s] => destruct (has_text U w s); cbn -[has_text]; try discriminate end.
Qed.
Lemma argument_rel f q p rel : ord (NPredArg f q p rel) = true -> match rel with None => True | Some r => ord r = true end.
Proof. cbn [orderly]. intros H. apply andb_prop in H as [_ H]. destruct rel; auto. Qed.
Lemma argument_fo_rel f q p rel : fo (NPredArg f q p rel) = true -> match rel with None => True | Some r => fo r = true end.
Proof. cbn [first_order]. intros H. apply andb_prop in H as [_ H]. destruct rel; auto. Qed.

Lemma quantifies_case g t f w p rel v qq R t' : is_variable U ol p = Some v -> quantifies_as U (Some w) = Some qq ->
  P_li (naming g v (n_next t) (counted qq)) (up_to t (S (n_next t))) (n_next t) rel R t' ->
  P_sd g t f (Some w) p rel (Some (qq, n_next t, R)) (Bound (n_next t) false) (naming g v (n_next t) (counted qq)) t'.
Proof.
  intros V Q IH O K Fi Op. pose proof (argument_rel _ _ _ _ O) as Or. cbn [orderly] in O. rewrite V in O. parts O. apply negb_true_iff in O, A0.
  assert (NQ : qq <> QThe /\ qq <> QLambda) by (split; intros ->; [apply quantifies_the in Q|apply quantifies_lambda in Q]; congruence). destruct NQ as [N1 N2].
  assert (C : counted qq = true) by (destruct qq; try reflexivity; congruence). rewrite C in *.
  assert (Gu : grows t (up_to t (S (n_next t)))) by (apply grows_up; lia).
  destruct (IH Or) as (Fi' & G & HR).
  - apply okay_about; [|cbn; lia]. apply okay_naming; [|cbn; lia]. eapply okay_grows; eassumption.
  - apply fine_up; [lia|exact Fi].
  - left. intros y [= <-]. now left.
  - pose proof G as (L & _ & _). cbn in L. split; [exact Fi'|]. split; [eapply grows_trans; eassumption|]. cbn [bind_ok]. split; [eauto|]. split; [unfold between; lia|]. split; [apply incl_refl|]. split; [reflexivity|]. split; [reflexivity|].
    destruct R as [R|]; [|exact N2]. destruct HR as (St & Fr & Bi & T & Pr). unfold between in *. cbn in Fr, Bi, Pr. split; [|split; [|split; [|split; [exact T|split]]]]; unfold between.
    + intros y I0. specialize (St y I0). apply in_app_or in St as [H|H].
      * apply in_app_or in H as [[<-|H]|[<-|[]]]; [now left|right; apply in_or_app; left; apply in_or_app; now left|now left].
      * apply in_app_or in H as [H|[]]. right. apply in_or_app; now right.
    + intros y I0. destruct (Fr y I0) as [[]|J]. lia.
    + intros y I0. specialize (Bi y I0). lia.
    + intros y I0. destruct (Pr y I0) as [[<-|J]|J]; [right; lia|auto|right; lia].
    + intros [-> | ->]; [congruence|]. exfalso. clear - Q. unfold quantifies_as, listed in Q. cbn -[has_text] in Q.
      repeat match type of Q with context [has_text U w ?s] => destruct (has_text U w s); cbn -[has_text] in Q; try discriminate end.
Qed.
Lemma looked_up_case vars v i x j : looked_up vars v i = (x, j) ->
  (x = Free i /\ j = S i) \/ (exists y, x = Bound y false /\ In y (map snd vars) /\ j = i).
Proof.
  unfold looked_up. destruct (find _ vars) as [[v' z]|] eqn:E; intros L; injection L as <- <-; [right|left; auto].
  apply find_some in E as [E _]. exists z. split; [reflexivity|]. split; [|reflexivity]. apply in_map_iff. exists (v', z). auto.
Qed.
Lemma variable_arg_case g t f p v x i : looked_up (v_vars g) v (n_next t) = (x, i) -> P_sd g t f None p None None x g (up_to t i).
Proof.
  intros L O K Fi Op. apply looked_up_case in L as [(-> & ->)|(y & -> & I0 & ->)].
  - split; [apply fine_up; [lia|exact Fi]|]. split; [apply grows_up; lia|]. split; [reflexivity|]. split; [intros y []|]. intros y [<-|[]]. unfold between. cbn. lia.
  - split; [apply fine_up; [lia|exact Fi]|]. split; [apply grows_up; lia|]. split; [reflexivity|]. split; [|intros z []]. intros z [<-|[]]. apply in_or_app; left. apply in_or_app; left. exact I0.
Qed.
Lemma bound_new g t q n f R t' : between t t' n -> limit_ok g t n q R t' -> bind_ok g t (Some (q, n, Some R)) (Bound n f) (in_scope g n true) t'.
Proof. intros B H. cbn [bind_ok]. split; [eauto|]. split; [exact B|]. split; [apply incl_tl, incl_refl|]. auto. Qed.
Lemma variable_limited_case g t f p n v x i R t' : looked_up (v_vars g) v (n_next t) = (x, i) ->
  P_li (in_scope g i true) (up_to t (S i)) i (Some n) (Some R) t' ->
  P_sd g t f None p (Some n) (Some (QAll, i, Some (Joined KAnd (some_of i x) R))) (Bound i false) (in_scope g i true) t'.
Proof.
  intros L IH O K Fi Op. pose proof (argument_rel _ _ _ _ O) as Or. apply looked_up_case in L.
  assert (Li : n_next t <= i) by (destruct L as [(_ & ->)|(y & _ & _ & ->)]; lia).
  assert (Gu : grows t (up_to t (S i))) by (apply grows_up; lia).
  destruct (IH Or) as (Fi' & G & HR).
  - apply okay_about; [|cbn; lia]. apply okay_in_scope; [|cbn; lia]. eapply okay_grows; eassumption.
  - apply fine_up; [lia|exact Fi].
  - left. apply shown_about.
  - pose proof G as (L' & _ & _). cbn in L'. split; [exact Fi'|]. split; [eapply grows_trans; eassumption|]. apply bound_new; [unfold between; lia|].
    apply (some_of_ok g t (up_to t (S i)) QAll i x (Some R) t' true); try assumption; cbn; try lia.
    + intros y I0. destruct L as [(-> & _)|(z & -> & Z & _)]; [destruct I0|]. destruct I0 as [<-|[]]. apply in_or_app; left. apply in_or_app; left. exact Z.
    + intros y I0. destruct L as [(-> & ->)|(z & -> & Z & _)]; [|destruct I0]. destruct I0 as [<-|[]]. unfold between; cbn; lia.
Qed.
Lemma hoa_free_case g t f q p rel : P_sd g t f q p rel None (Free (n_next t)) g (up_to t (S (n_next t))).
Proof.
  intros O K Fi Op. split; [apply fine_up; [lia|exact Fi]|]. split; [apply grows_up; lia|]. split; [reflexivity|]. split; [intros y []|]. intros y [<-|[]]. unfold between. cbn. lia.
Qed.
Lemma hoa_bound_case g t f p x : v_hoa g = Some x -> P_sd g t f None p None None (Bound x false) g t.
Proof.
  intros H O K Fi Op. split; [exact Fi|]. split; [apply grows_refl|]. split; [reflexivity|]. split; [|intros y []]. intros y [<-|[]]. apply in_or_app; left. apply in_or_app; right. unfold hoa_in. rewrite H. now left.
Qed.
Lemma hoa_limited_case g t f q p rel x R t' : v_hoa g = Some x -> P_li (in_scope g (n_next t) true) (up_to t (S (n_next t))) (n_next t) rel R t' ->
  P_sd g t f q p rel (Some (QAll, n_next t, Some (and_also (some_of (n_next t) (Bound x false)) R))) (Bound (n_next t) false) (in_scope g (n_next t) true) t'.
Proof.
  intros H IH O K Fi Op. pose proof (argument_rel _ _ _ _ O) as Or.
  assert (Gu : grows t (up_to t (S (n_next t)))) by (apply grows_up; lia).
  destruct (IH Or) as (Fi' & G & HR).
  - apply okay_about; [|cbn; lia]. apply okay_in_scope; [|cbn; lia]. eapply okay_grows; eassumption.
  - apply fine_up; [lia|exact Fi].
  - left. apply shown_about.
  - pose proof G as (L' & _ & _). cbn in L'. split; [exact Fi'|]. split; [eapply grows_trans; eassumption|]. apply bound_new; [unfold between; lia|].
    apply (some_of_ok g t (up_to t (S (n_next t))) QAll (n_next t) (Bound x false) R t' true); try assumption; try (cbn; lia).
    intros y [<-|[]]. apply in_or_app; left. apply in_or_app; right. unfold hoa_in. rewrite H. now left.
Qed.
(** A predicate with a relative clause, in general. *)
Lemma description g t f q p rel P R0 t1 t' (c : bool) : is_variable U ol p = None -> is_hoa U p = false ->
  P_pr g (up_to t (S (n_next t))) p P t1 -> P_li (in_scope g (n_next t) c) t1 (n_next t) rel R0 t' ->
  ord (NPredArg f q p rel) = true -> okay g t -> fine t -> (shown_hoa g \/ fo (NPredArg f q p rel) = true) -> c = true \/ quantifies_as U q = Some QThe ->
  let n := n_next t in let R := and_also (said_of P (Item (Var (Bound n (given f))) Nil)) R0 in
  fine t' /\ grows t t' /\ between t t' n /\ (forall qq, limit_ok g t n qq R t') /\ (forall y, In y (stray R) -> In y (counted_in g) \/ y = n \/ In y (outs t')).
Proof.
  intros V H IH1 IH2 O K Fi Op C n R. pose proof (argument_rel _ _ _ _ O) as Or. pose proof (argument_fo_rel f q p rel) as Fr.
  cbn [orderly] in O. rewrite V, H in O. parts O. cbn [first_order] in Op. rewrite V, H in Op.
  assert (Op' : shown_hoa g \/ (fo p = true /\ fo (NPredArg f q p rel) = true)).
  { destruct Op as [Op|Op]; [auto|right]. split; [|cbn [first_order]; now rewrite V, H]. parts Op. assumption. }
  assert (Gu : grows t (up_to t (S n))) by (apply grows_up; subst n; lia).
  destruct (IH1 A1) as (Fi1 & G1 & E & EF & _ & _ & Ow).
  - eapply okay_grows; eassumption.
  - apply fine_up; [lia|exact Fi].
  - tauto.
  - pose proof G1 as (L1 & _ & _). cbn in L1. destruct (IH2 Or) as (Fi2 & G2 & HR).
    + apply okay_about; [|lia]. apply okay_in_scope; [|lia]. eapply okay_grows; [exact G1|]. eapply okay_grows; eassumption.
    + exact Fi1.
    + destruct C as [-> |Q]; [left; apply shown_about|right]. rewrite Q in A0. destruct rel; auto.
    + split; [exact Fi2|]. split; [eapply grows_trans; [exact Gu|]; eapply grows_trans; eassumption|]. pose proof G2 as (L2 & O2 & _). split; [unfold between; subst n; lia|].
      assert (Ow' : own n [] (said_of P (Item (Var (Bound n (given f))) Nil)) = true).
      { apply Ow; [cbn; subst n; lia| |].
        - intros I0. apply (avail_lt g t _ K) in I0. subst n. lia.
        - intros I0. change (In n (outs t)) in I0. apply (o_lt _ Fi) in I0. subst n. lia. }
      split; [intros qq; eapply described; eassumption|]. intros y I0.
      assert (I1 : In y (stray (said_of P (Item (Var (Bound n (given f))) Nil))) \/ (exists R1, R0 = Some R1 /\ In y (stray R1))).
      { subst R. destruct R0 as [R1|]; cbn [and_also stray] in I0; [|auto]. apply in_app_or in I0 as [I0|I0]; eauto. }
      destruct I1 as [I1|(R1 & -> & I1)].
      * assert (Z : each (fun p0 => incl (stray_p p0) (counted_in g ++ outs t1)) P).
        { destruct Op' as [Sh|[Fp _]].
          - eapply each_mono; [|exact E]. intros p0 Hp z Iz. apply Hp in Iz. apply in_app_or in Iz as [Iz|Iz]; apply in_or_app; [left|now right].
            apply in_app_or in Iz as [Iz|Iz]; [now apply (k_names _ _ K)|]. unfold hoa_in in Iz. destruct (v_hoa g) as [h|] eqn:Eh; [|destruct Iz]. destruct Iz as [<-|[]]. auto.
          - eapply each_mono; [|exact (EF Fp)]. intros p0 Hp z Iz. apply Hp in Iz. apply in_app_or in Iz as [Iz|Iz]; apply in_or_app; [left; now apply (k_names _ _ K)|now right]. }
        apply (stray_said _ _ _ Z) in I1. apply in_app_or in I1 as [I1|[<-|[]]]; [|auto]. apply in_app_or in I1 as [I1|I1]; [auto|right; right; auto].
      * apply about_said in HR as (St2 & _). destruct (St2 y I1) as [<-|J]; [auto|]. apply in_app_or in J as [J|J]; [left; now apply (k_names _ _ K)|auto].
Qed.
Lemma described_case g t f q p rel qq P R0 R t1 t' : is_variable U ol p = None -> is_hoa U p = false ->
  P_pr g (up_to t (S (n_next t))) p P t1 -> P_li (in_scope g (n_next t) true) t1 (n_next t) rel R0 t' ->
  R = and_also (said_of P (Item (Var (Bound (n_next t) (given f))) Nil)) R0 ->
  P_sd g t f q p rel (Some (qq, n_next t, Some R)) (Bound (n_next t) (given f)) (in_scope g (n_next t) true) t'.
Proof.
  intros V H IH1 IH2 -> O K Fi Op. destruct (description g t f q p rel P R0 t1 t' true V H IH1 IH2 O K Fi Op (or_introl eq_refl)) as (Fi' & G & B & L & _).
  split; [exact Fi'|]. split; [exact G|]. apply bound_new; auto.
Qed.
Lemma the_free_case g t f q p rel P R0 R t1 t' : is_variable U ol p = None -> is_hoa U p = false -> quantifies_as U q = Some QThe ->
  P_pr g (up_to t (S (n_next t))) p P t1 -> P_li (in_scope g (n_next t) false) t1 (n_next t) rel R0 t' ->
  R = and_also (said_of P (Item (Var (Bound (n_next t) (given f))) Nil)) R0 ->
  P_sd g t f q p rel (Some (QAll, n_next t, Some R)) (Bound (n_next t) (given f)) (in_scope g (n_next t) true) t'.
Proof.
  intros V H Q IH1 IH2 -> O K Fi Op. destruct (description g t f q p rel P R0 t1 t' false V H IH1 IH2 O K Fi Op (or_intror Q)) as (Fi' & G & B & L & _).
  split; [exact Fi'|]. split; [exact G|]. apply bound_new; auto.
Qed.
Lemma the_case g t f q p rel P R0 R t1 t' : is_variable U ol p = None -> is_hoa U p = false -> quantifies_as U q = Some QThe ->
  P_pr g (up_to t (S (n_next t))) p P t1 -> P_li (in_scope g (n_next t) false) t1 (n_next t) rel R0 t' ->
  R = and_also (said_of P (Item (Var (Bound (n_next t) (given f))) Nil)) R0 -> free_in g R = false ->
  P_sd g t f q p rel None (Bound (n_next t) (given f)) g (lifted_as (bound_outside t' (n_next t) R) (place p) (n_next t)).
Proof.
  intros V H Q IH1 IH2 -> Fr O K Fi Op. destruct (description g t f q p rel P R0 t1 t' false V H IH1 IH2 O K Fi Op (or_intror Q)) as (Fi' & G & B & L & St).
  specialize (L QThe). destruct L as (_ & _ & _ & T & _ & Ow). set (R := and_also _ _) in *.
  assert (Fi2 : fine (bound_outside t' (n_next t) R)).
  { apply fine_bound; [exact Fi'|apply B| |exact T|auto]. intros y I0. destruct (St y I0) as [C|[-> |J]]; [destruct (not_free g R y Fr C I0)|now left|now right]. }
  assert (In1 : In (n_next t) (outs (bound_outside t' (n_next t) R))) by (rewrite outs_bound; apply in_or_app; right; now left).
  split; [now apply fine_lifted|]. split; [exact (grows_bound t t' (n_next t) R G B)|]. split; [reflexivity|]. split; [|intros y []].
  intros y [<-|[]]. apply in_or_app; right. exact In1.
Qed.

Lemma limits_case g t x n F t' : P_cl (about g x) t n F t' -> P_li g t x (Some n) (Some F) t'.
Proof. intros IH O K Fi Op. exact (IH O K Fi Op). Qed.
Lemma clause_joined_case g t f m ru l r c F G t1 t2 : P_cl g t l F t1 -> P_cl g t1 r G t2 -> P_cl g t (NCoP CRelative f m ru l r) (Joined c F G) t2.
Proof.
  intros IH1 IH2 O K Fi Op. cbn in O. apply andb_prop in O as [O1 O2]. cbn [first_order andb] in Op.
  destruct (IH1 O1 K Fi) as (Fi1 & G1 & S1); [destruct Op as [Op|Op]; [auto|right; now apply andb_prop in Op]|].
  destruct (IH2 O2 (okay_grows _ _ _ G1 K) Fi1) as (Fi2 & G2 & S2); [destruct Op as [Op|Op]; [auto|right; now apply andb_prop in Op]|].
  split; [exact Fi2|]. split; [eapply grows_trans; eassumption|]. now apply (said_joined _ _ _ _ _ _ _ t1).
Qed.

Theorem parts_orderly :
  (forall g t a n F t', states U ol g t a n F t' -> P_st g t a n F t') /\
  (forall g t n P t', predicates U ol g t n P t' -> P_pr g t n P t') /\
  (forall g t a n k l F ts t', front U ol g t a n k l F ts t' -> P_fr g t a n k l F ts t') /\
  (forall g t s x n F t', po_says U ol g t s x n F t' -> P_po g t s x n F t') /\
  (forall g t n a F ts t', relates U ol g t n a F ts t' -> P_re g t n a F ts t') /\
  (forall g t p a n F ts t', relates_by U ol g t p a n F ts t' -> P_rb g t p a n F ts t') /\
  (forall g t n x F t', modifies U ol g t n x F t' -> P_mo g t n x F t') /\
  (forall g t n b x g' t', refers U ol g t n b x g' t' -> P_rf g t n b x g' t') /\
  (forall g t x l r F g' t', both_left U ol g t x l r F g' t' -> True) /\
  (forall g t x v r F g' t', both_right U ol g t x v r F g' t' -> True) /\
  (forall g t f q p r b x g' t', stands U ol g t f q p r b x g' t' -> P_sd g t f q p r b x g' t') /\
  (forall g t x n R t', limits U ol g t x n R t' -> P_li g t x n R t') /\
  (forall g t n F t', says_clause U ol g t n F t' -> P_cl g t n F t').
Proof.
  apply clauses_min; intros; try exact I.
  - (* SPrenex *) intros O K Fi A Op. cbn in O. apply andb_prop in O as [O1 O2]. destruct (H0 O2 O1 K Fi A) as (Fi' & G & S0 & _ & _ & C).
    + destruct Op as [Op|Op]; [auto|right]. cbn in Op. apply andb_prop in Op as [Op1 Op2]. auto.
    + split; [exact Fi'|]. split; [exact G|]. split; [exact S0|]. cbn. intros Ca. apply andb_prop in Ca as [C1 C2]. auto.
  - (* STerms *) intros O K Fi A Op. cbn in O. apply andb_prop in O as [O1 O2]. destruct (H0 ltac:(cbn; rewrite O1; reflexivity) O2 K Fi A) as (Fi' & G & S0 & _ & _ & C).
    + destruct Op as [Op|Op]; [auto|right]. cbn in Op. apply andb_prop in Op as [Op1 Op2]. cbn. rewrite Op1. auto.
    + split; [exact Fi'|]. split; [exact G|]. split; [exact S0|]. cbn. intros Ca. apply andb_prop in Ca as [C1 C2]. apply C; [cbn; now rewrite C1|exact C2].
  - eapply bare_case; eassumption.
  - eapply joined_case; eassumption.
  - eapply variable_case; eassumption.
  - intros O. cbn [orderly] in O. rewrite H in O. unfold name_word in O. rewrite H, H0 in O. discriminate.
  - intros O. cbn [orderly] in O. rewrite H in O. unfold name_word in O. rewrite H, H0 in O. discriminate.
  - now apply named_case.
  - eapply serial_case; eassumption.
  - now apply quoted_case.
  - now apply quoted_case.
  - eapply po_case; eassumption.
  - now apply lu_case.
  - now apply li_case.
  - eapply clause_case; [eassumption|reflexivity..].
  - eapply clause_case; [eassumption|reflexivity..].
  - eapply paired_case; eassumption.
  - now apply end_case.
  - eapply set_case; eassumption.
  - eapply connected_case; [| |eassumption|eassumption].
    + cbn. intros O. parts O. auto.
    + cbn. intros O. parts O. auto.
  - eapply argument_case; [| | |eassumption|eassumption]; auto.
  - eapply argument_case; [| | |eassumption|eassumption]; cbn; auto; intros O; parts O; auto.
  - eapply connected_case; [| |eassumption|eassumption].
    + cbn. intros O. apply andb_prop in O as [E O]. parts O. rewrite A0, A, E. auto.
    + cbn. intros O. parts O. auto.
  - eapply prep_case; eassumption.
  - eapply prep_free_case; eassumption.
  - eapply adverb_case; eassumption.
  - eapply adverb_free_case; eassumption.
  - eapply po_one_case; eassumption.
  - eapply po_joined_case; eassumption.
  - intros O K Fi Sh Rl. cbn in O. apply andb_prop in O as [O1 O2]. exact (H0 O1 O2 K Fi Sh Rl).
  - eapply relates_joined_case; eassumption.
  - eapply by_var_case; eassumption.
  - eapply by_rest_case; eassumption.
  - eapply by_joined_case; eassumption.
  - now apply modifies_case.
  - eapply modifies_joined_case; eassumption.
  - assumption.
  - intros O. cbn in O. rewrite H in O. discriminate.
  - now apply seen_case.
  - eapply quantifies_case; eassumption.
  - eapply variable_arg_case; eassumption.
  - eapply variable_limited_case; eassumption.
  - apply hoa_free_case.
  - now apply hoa_bound_case.
  - eapply hoa_limited_case; eassumption.
  - eapply described_case; eassumption.
  - eapply the_free_case; eassumption.
  - eapply the_case; eassumption.
  - intros _ _ Fi _. split; [exact Fi|]. split; [apply grows_refl|exact I].
  - now apply limits_case.
  - intros O K Fi Op. cbn in O, Op. destruct (H0 O K Fi (no_args _ _) Op) as (A & B & C & _). auto.
  - intros O K Fi Op. cbn in O. cbn [first_order] in Op. destruct (H0 O K Fi (no_args _ _) Op) as (A & B & C & _). auto.
  - eapply clause_joined_case; eassumption.
Qed.
End Proof.
