(** The trees built from first-order sentences have no variables outside of the scope of
    their bindings, before they are simplified. *)

From Coq Require Import String NArith List Bool Arith Lia.
From Verif Require Import Base PegSyntax Ast AstSorts Logic LogicWords LogicSpec ScopeSpec Interp OrderFacts SeqFacts TermFacts ScopeFacts.
From Verif Require SafeBase.
Import ListNotations.
Open Scope string_scope.
Open Scope list_scope.
Open Scope nat_scope.

(** ** States *)

Definition the_ok (h : heap) (l : list ref) : Prop :=
  forall pre b post, l = pre ++ b :: post ->
    ~ In b pre /\ orphan h b /\
    exists n f rs, nth_error h b = Some (CBinding QThe n f (Some rs) None) /\ forall d, free h rs d -> d = b \/ In d pre.
Definition vars_ok (h : heap) (vs : list (string * ref)) : Prop :=
  forall v b, In (v, b) vs -> exists q n f rs sc, nth_error h b = Some (CBinding q n f rs sc) /\ q <> QThe.
Definition lift_ok (the : list ref) (li : list (nat * ref)) : Prop := forall k b, In (k, b) li -> In b the.

Record good4 (h : heap) (the : list ref) (li : list (nat * ref)) (vs : list (string * ref)) : Prop := Good4 {
  g_wf : wf h;
  g_the : the_ok h the;
  g_li : lift_ok the li;
  g_vars : vars_ok h vs }.
Definition good (s : st) : Prop := good4 (s_heap s) (s_the s) (s_lifted s) (s_vars s).

Record ext8 (h : heap) (the : list ref) (hoa : list ref) (hi : list (list ref))
    (h' : heap) (the' : list ref) (hoa' : list ref) (hi' : list (list ref)) : Prop := Ext8 {
  e_fresh : ScopeFacts.fresh h h';
  e_the : exists t, the' = the ++ t /\ forall b, In b t -> length h <= b;
  e_hoa : hoa' = hoa;
  e_hi : hi' = hi }.
Definition ext (s s' : st) : Prop :=
  ext8 (s_heap s) (s_the s) (s_hoa s) (s_hi s) (s_heap s') (s_the s') (s_hoa s') (s_hi s').

Lemma the_in h l b : the_ok h l -> In b l -> orphan h b /\ exists n f rs, nth_error h b = Some (CBinding QThe n f (Some rs) None).
Proof. intros T I. apply in_split in I. destruct I as (pre & post & E). destruct (T _ _ _ E) as (_ & O & n & f & rs & X & _). eauto 6. Qed.
Lemma the_lt h l b : the_ok h l -> In b l -> b < length h.
Proof. intros T I. destruct (the_in _ _ _ T I) as (_ & n & f & rs & E). eapply nth_lt, E. Qed.
Lemma the_stmt h l b : the_ok h l -> In b l -> stmt h b.
Proof. intros T I. destruct (the_in _ _ _ T I) as (_ & n & f & rs & E). eexists. split; [exact E|reflexivity]. Qed.

Lemma the_ok_fresh h h' l : wf h -> ScopeFacts.fresh h h' -> the_ok h l -> the_ok h' l.
Proof.
  intros W F T pre b post E. destruct (T _ _ _ E) as (N & O & n & f & rs & X & Fr). split; [exact N|].
  assert (S : stmt h b) by (eexists; split; [exact X|reflexivity]).
  split; [eapply fresh_orphan; eassumption|]. exists n, f, rs. split; [rewrite (f_old _ _ F); [exact X|eapply nth_lt, X]|].
  intros d K. apply Fr. apply (fresh_free _ _ _ _ W F) in K; [exact K|]. eapply child_lt; [exact W|]. eexists; split; [exact X|left; reflexivity].
Qed.
Lemma vars_ok_fresh h h' vs : ScopeFacts.fresh h h' -> vars_ok h vs -> vars_ok h' vs.
Proof.
  intros F V v b I. destruct (V _ _ I) as (q & n & f & rs & sc & E & Q). exists q, n, f, rs, sc. split; [|exact Q].
  rewrite (f_old _ _ F); [exact E|eapply nth_lt, E].
Qed.

Lemma ext_refl s : good s -> ext s s.
Proof. intros G. split; auto; [apply fresh_refl, (g_wf _ _ _ _ G)|]. exists []. rewrite app_nil_r. split; [reflexivity|contradiction]. Qed.
Lemma ext_trans a b c : good b -> ext a b -> ext b c -> ext a c.
Proof.
  intros G [F1 (t1 & T1 & N1) H1 I1] [F2 (t2 & T2 & N2) H2 I2]. split; try congruence.
  - eapply fresh_trans; [exact (g_wf _ _ _ _ G)|eassumption..].
  - exists (t1 ++ t2). rewrite T2, T1, app_assoc. split; [reflexivity|]. intros x X. apply in_app_or in X. destruct X as [X|X]; [auto|].
    pose proof (f_len _ _ F1). pose proof (N2 _ X). lia.
Qed.
Lemma ext_the s s' x : ext s s' -> In x (s_the s) -> In x (s_the s').
Proof. intros [_ (t & -> & _) _ _] I. apply in_or_app. auto. Qed.
Lemma ext_not_the s s' x : ext s s' -> x < length (s_heap s) -> ~ In x (s_the s) -> ~ In x (s_the s').
Proof. intros [_ (t & -> & N) _ _] L O I. apply in_app_or in I. destruct I as [I|I]; [auto|]. pose proof (N _ I). lia. Qed.
Lemma ext_len s s' : ext s s' -> length (s_heap s) <= length (s_heap s').
Proof. intros [F _ _ _]. apply (f_len _ _ F). Qed.
Lemma ext_nth s s' i c : ext s s' -> nth_error (s_heap s) i = Some c -> nth_error (s_heap s') i = Some c.
Proof. intros [F _ _ _] E. rewrite (f_old _ _ F); [exact E|eapply nth_lt, E]. Qed.

(** ** Atoms and statements *)

Definition atom (h : heap) (E : ref -> Prop) (r : ref) : Prop :=
  exists c, nth_error h r = Some c /\ is_stmt c = false /\ forall d, free h r d -> E d.
Lemma atom_ext s s' E r : atom (s_heap s) E r -> good s -> ext s s' -> atom (s_heap s') E r.
Proof.
  intros (c & N & S & F) G X. exists c. split; [eapply ext_nth; eassumption|]. split; [exact S|]. intros d D. apply F.
  apply (fresh_free _ _ _ _ (g_wf _ _ _ _ G) (e_fresh _ _ _ _ _ _ _ _ X)) in D; [exact D|eapply nth_lt, N].
Qed.
Lemma atom_weak h (E E' : ref -> Prop) r : atom h E r -> (forall d, E d -> E' d) -> atom h E' r.
Proof. intros (c & N & S & F) I. exists c. auto. Qed.

Definition Or (E E' : ref -> Prop) : ref -> Prop := fun d => E d \/ E' d.
Definition The (s : st) (E : ref -> Prop) : ref -> Prop := fun d => E d \/ In d (s_the s).

Record made (s s' : st) (E : ref -> Prop) (x : ref) : Prop := Made {
  m_good : good s';
  m_ext : ext s s';
  m_new : length (s_heap s) <= x;
  m_stmt : stmt (s_heap s') x;
  m_orphan : orphan (s_heap s') x;
  m_the : ~ In x (s_the s');
  m_free : forall d, free (s_heap s') x d -> The s' E d }.

Lemma made_later s s1 s2 E x : made s s1 E x -> ext s1 s2 -> good s2 -> made s s2 E x.
Proof.
  intros [G X N S O T F] Y G2. assert (Fr := e_fresh _ _ _ _ _ _ _ _ Y). split; auto.
  - exact (ext_trans _ _ _ G X Y).
  - eapply fresh_stmt; eassumption.
  - eapply fresh_orphan; eassumption.
  - eapply ext_not_the; [exact Y|eapply stmt_lt, S|exact T].
  - intros d D. apply (fresh_free _ _ _ _ (g_wf _ _ _ _ G) Fr) in D; [|eapply stmt_lt, S]. destruct (F _ D) as [K|K]; [left; exact K|right; eapply ext_the; eassumption].
Qed.
Lemma made_earlier s0 s s' E x : good s -> ext s0 s -> made s s' E x -> made s0 s' E x.
Proof. intros Gs X0 [G X N S O T F]. split; auto; [exact (ext_trans _ _ _ Gs X0 X)|]. pose proof (ext_len _ _ X0). lia. Qed.
Lemma made_weak s s' (E E' : ref -> Prop) x : made s s' E x -> (forall d, E d -> The s' E' d) -> made s s' E' x.
Proof. intros [G X N S O T F] I. split; auto. intros d D. destruct (F _ D) as [K|K]; [auto|right; exact K]. Qed.

(** ** Allocating *)

Lemma alloc_ok c s z s' : alloc c s = Ok (z, s') -> z = length (s_heap s) /\ s' = with_heap s (s_heap s ++ [c]).
Proof. intros E. injection E as <- <-. auto. Qed.

Lemma fits_fresh h c : wf h -> fits h c -> ScopeFacts.fresh h (h ++ [c]) \/ exists x, In x (below c) /\ stmt h x.
Proof.
  intros W [Fo [_ Fi]]. destruct (holds_stmt c) eqn:Hc.
  - destruct (below c) as [|x l] eqn:B.
    + left. apply fresh_snoc; [exact W|apply fresh_refl, W| |]; rewrite B; contradiction.
    + right. exists x. split; [left; reflexivity|]. destruct (Fi x) as (c' & E & K & _); [left; reflexivity|]. exists c'. auto.
  - left. apply fresh_snoc; [exact W|apply fresh_refl, W| |].
    + intros x I (c' & E & S). destruct (Fi x I) as (c2 & E2 & K & _). congruence.
    + intros x I. destruct (Fi x I) as (c2 & E2 & _). eapply nth_lt, E2.
Qed.

Lemma free_below h r c d : nth_error h r = Some c -> free h r d ->
  (exists n f, c = CVariable n (Some d) f) \/ (exists x, In x (below c) /\ free h x d /\ (binds c = true -> d <> r)).
Proof. intros E K. inversion K as [? n ? f X|? c' x ? X I K' N]; subst; rewrite E in X; injection X as ->; eauto 6. Qed.

Lemma good_alloc s c : good s -> fits (s_heap s) c -> (forall x, In x (below c) -> stmt (s_heap s) x -> ~ In x (s_the s)) ->
  good (with_heap s (s_heap s ++ [c])).
Proof.
  intros [W T L V] F N. split; cbn [s_heap s_the s_lifted s_vars with_heap].
  - apply wf_snoc; assumption.
  - intros pre b post E. assert (Ib : In b (s_the s)) by (rewrite E; apply in_elt). destruct (T _ _ _ E) as (Nb & O & n & f & rs & X & Fr).
    split; [exact Nb|]. split.
    + intros i C. apply child_snoc in C. destruct C as [C|[-> I]]; [exact (O _ C)|]. apply (N _ I); [eapply the_stmt; eassumption|exact Ib].
    + exists n, f, rs. split; [rewrite nth_snoc_old; [exact X|eapply nth_lt, X]|]. intros d K. apply Fr.
      apply free_snoc in K; [exact K|exact W|eapply child_lt; [exact W|eexists; split; [exact X|left; reflexivity]]].
  - exact L.
  - intros v b I. destruct (V _ _ I) as (q & n & f & rs & sc & E & Q). exists q, n, f, rs, sc. split; [|exact Q].
    rewrite nth_snoc_old; [exact E|eapply nth_lt, E].
Qed.
Lemma ext_alloc s0 s c : good s -> ext s0 s -> (forall x, In x (below c) -> stmt (s_heap s) x -> length (s_heap s0) <= x) ->
  (forall x, In x (below c) -> x < length (s_heap s)) -> ext s0 (with_heap s (s_heap s ++ [c])).
Proof.
  intros G [F T Ho Hi] N B. split; auto. cbn [s_heap with_heap]. apply fresh_snoc; auto. apply (g_wf _ _ _ _ G).
Qed.

Lemma atom_lt h E r : atom h E r -> r < length h.
Proof. intros (c & N & _). eapply nth_lt, N. Qed.
Lemma atom_not_stmt h E r : atom h E r -> ~ stmt h r.
Proof. intros (c & N & S & _) (c' & N' & S'). congruence. Qed.

(** A cell whose children are atoms. *)
Lemma alloc_over_atoms c s z s' (E : ref -> Prop) : alloc c s = Ok (z, s') -> good s -> holds_stmt c = false -> fo_cell c = true ->
  (forall x, In x (below c) -> atom (s_heap s) E x) -> (forall n d f, c = CVariable n (Some d) f -> E d) ->
  good s' /\ ext s s' /\ s_vars s' = s_vars s /\ z = length (s_heap s) /\ nth_error (s_heap s') z = Some c /\
  (forall d, free (s_heap s') z d -> E d) /\ orphan (s_heap s') z /\ s_the s' = s_the s.
Proof.
  intros A G Hs Fo At V. apply alloc_ok in A. destruct A as [-> ->].
  assert (Fi : fits (s_heap s) c).
  { split; [exact Fo|]. split; [congruence|]. intros x I. destruct (At _ I) as (c' & N & S & _). exists c'. split; [exact N|]. split; congruence. }
  assert (Ns : forall x, In x (below c) -> ~ stmt (s_heap s) x) by (intros x I; eapply atom_not_stmt, At, I).
  assert (Lt : forall x, In x (below c) -> x < length (s_heap s)) by (intros x I; eapply atom_lt, At, I).
  assert (G' : good (with_heap s (s_heap s ++ [c]))) by (apply good_alloc; [exact G|exact Fi|]; intros x I S; destruct (Ns _ I S)).
  assert (X : ext s (with_heap s (s_heap s ++ [c]))) by (apply ext_alloc; [exact G|apply ext_refl, G| |exact Lt]; intros x I S; destruct (Ns _ I S)).
  assert (N : nth_error (s_heap (with_heap s (s_heap s ++ [c]))) (length (s_heap s)) = Some c) by apply nth_snoc.
  repeat match goal with |- _ /\ _ => split end; try assumption; try reflexivity.
  - intros d K. apply (free_below _ _ _ _ N) in K. destruct K as [(n & f & ->)|(x & I & K & _)]; [eapply V; reflexivity|].
    destruct (At _ I) as (c' & N' & _ & F). apply F. apply free_snoc in K; [exact K|apply (g_wf _ _ _ _ G)|apply Lt, I].
  - apply orphan_new; [apply (g_wf _ _ _ _ G)|exact Lt].
Qed.
Lemma alloc_leaf c s z s' (E : ref -> Prop) : alloc c s = Ok (z, s') -> good s -> is_stmt c = false -> fo_cell c = true ->
  (forall x, In x (below c) -> atom (s_heap s) E x) -> (forall n d f, c = CVariable n (Some d) f -> E d) ->
  good s' /\ ext s s' /\ s_vars s' = s_vars s /\ atom (s_heap s') E z /\ s_the s' = s_the s.
Proof.
  intros A G S Fo At V. assert (Hs : holds_stmt c = false) by (destruct c; try discriminate; reflexivity).
  destruct (alloc_over_atoms _ _ _ _ _ A G Hs Fo At V) as (G' & X & Vs & _ & N & F & _ & T).
  repeat match goal with |- _ /\ _ => split end; try assumption. exists c. auto.
Qed.
Lemma alloc_predication p o s z s' (E : ref -> Prop) : alloc (CPredication p o) s = Ok (z, s') -> good s ->
  atom (s_heap s) (The s E) p -> (forall x, In (Some x) o -> atom (s_heap s) (The s E) x) -> made s s' E z /\ s_vars s' = s_vars s.
Proof.
  intros A G P O. destruct (alloc_over_atoms _ _ _ _ (The s E) A G eq_refl eq_refl) as (G' & X & Vs & -> & N & F & Or' & T).
  - intros x I. cbn [below] in I. destruct I as [<-|I]; [exact P|]. apply O.
    rewrite in_flat_map in I. destruct I as ([y|] & I & J); cbn in J; [|contradiction]. destruct J as [<-|[]]. exact I.
  - discriminate.
  - split; [|exact Vs]. split; try assumption; [lia|eexists; split; [exact N|reflexivity]| |].
    + rewrite T. intros I. apply (the_lt _ _ _ (g_the _ _ _ _ G)) in I. lia.
    + intros d D. destruct (F _ D) as [K|K]; [left; exact K|right]. rewrite T. exact K.
Qed.

(** A connection. *)
Lemma alloc_connection s0 c x y s z s' E : alloc (CConnection c x y) s = Ok (z, s') -> made s0 s E x -> made s0 s E y -> x <> y ->
  made s0 s' E z /\ s_vars s' = s_vars s.
Proof.
  intros A Mx My N. apply alloc_ok in A. destruct A as [-> ->]. assert (G := m_good _ _ _ _ Mx).
  assert (W := g_wf _ _ _ _ G).
  assert (In2 : forall w, In w (below (CConnection c x y)) -> made s0 s E w) by (intros w [<-|[<-|[]]]; assumption).
  assert (Lt : forall w, In w (below (CConnection c x y)) -> w < length (s_heap s)) by (intros w I; eapply stmt_lt, (m_stmt _ _ _ _ (In2 _ I))).
  split; [|reflexivity]. split.
  - apply good_alloc; [exact G| |].
    + split; [reflexivity|]. split; [intros _; repeat constructor; [intros [K|[]]; congruence|intros []]|]. intros w I. specialize (In2 _ I). destruct (m_stmt _ _ _ _ In2) as (c' & E' & S). exists c'.
      split; [exact E'|]. split; [exact S|]. intros _. exact (m_orphan _ _ _ _ In2).
    + intros w I _. exact (m_the _ _ _ _ (In2 _ I)).
  - apply ext_alloc; [exact G|exact (m_ext _ _ _ _ Mx)| |exact Lt]. intros w I _. exact (m_new _ _ _ _ (In2 _ I)).
  - pose proof (ext_len _ _ (m_ext _ _ _ _ Mx)). exact H.
  - eexists. split; [apply nth_snoc|reflexivity].
  - apply orphan_new; assumption.
  - cbn. intros I. apply (the_lt _ _ _ (g_the _ _ _ _ G)) in I. lia.
  - intros d D. eapply free_below in D; [|apply nth_snoc]. destruct D as [(n & f & D)|(w & I & D & _)]; [discriminate|].
    apply free_snoc in D; [|exact W|apply Lt, I]. exact (m_free _ _ _ _ (In2 _ I) _ D).
Qed.

(** ** Changing a binding *)

Lemma get_binding_ok b s c s' : get_binding b s = Ok (c, s') ->
  s' = s /\ nth_error (s_heap s) b = Some (CBinding (b_q c) (b_n c) (b_focus c) (b_restr c) (b_scope c)).
Proof.
  unfold get_binding, get, mbind. destruct (nth_error (s_heap s) b) as [e|]; [|discriminate]. destruct e; try discriminate.
  intros H. injection H as <- <-. auto.
Qed.
Definition put (s : st) (b : ref) (c : cell) : st := with_heap s (set_nth b c (s_heap s)).
Lemma set_restriction_ok b x s u s' : set_restriction b x s = Ok (u, s') -> exists q n f rs sc,
  nth_error (s_heap s) b = Some (CBinding q n f rs sc) /\ s' = put s b (CBinding q n f (Some x) sc).
Proof. unfold set_restriction. intros H. minv H. apply get_binding_ok in E. destruct E as [-> E]. injection H as <- <-. eauto 10. Qed.
Lemma set_scope_ok b x s u s' : set_scope b x s = Ok (u, s') -> exists q n f rs sc,
  nth_error (s_heap s) b = Some (CBinding q n f rs sc) /\ s' = put s b (CBinding q n f rs (Some x)).
Proof. unfold set_scope. intros H. minv H. apply get_binding_ok in E. destruct E as [-> E]. injection H as <- <-. eauto 10. Qed.
Lemma set_quantifier_ok b q' s u s' : set_quantifier b q' s = Ok (u, s') -> exists q n f rs sc,
  nth_error (s_heap s) b = Some (CBinding q n f rs sc) /\ s' = put s b (CBinding q' n f rs sc).
Proof. unfold set_quantifier. intros H. minv H. apply get_binding_ok in E. destruct E as [-> E]. injection H as <- <-. eauto 10. Qed.
Lemma set_focus_ok b s u s' : set_focus b s = Ok (u, s') -> exists q n f rs sc,
  nth_error (s_heap s) b = Some (CBinding q n f rs sc) /\ s' = put s b (CBinding q n true rs sc).
Proof. unfold set_focus. intros H. minv H. apply get_binding_ok in E. destruct E as [-> E]. injection H as <- <-. eauto 10. Qed.

(** Everything but the shape of the heap, when the restriction and the scope of [b] change. *)
Lemma good_put s h' b q n f rs sc q' n' f' rs' sc' : good s -> wf h' -> nth_error (s_heap s) b = Some (CBinding q n f rs sc) ->
  (q <> QThe -> q' <> QThe) -> ~ In b (s_the s) ->
  nth_error h' b = Some (CBinding q' n' f' rs' sc') ->
  (forall i, i <> b -> i < length (s_heap s) -> nth_error h' i = nth_error (s_heap s) i) ->
  (forall x, In x (s_the s) -> orphan h' x) ->
  (forall r d, r <> b -> r < length (s_heap s) -> free h' r d -> free (s_heap s) r d) ->
  orphan (s_heap s) b -> good (with_heap s h').
Proof.
  intros [W T L V] W' B Q Nt B' Old Or' Fr Ob. split; cbn [s_heap s_the s_lifted s_vars with_heap]; [exact W'| |exact L|].
  - intros pre x post E. assert (I : In x (s_the s)) by (rewrite E; apply in_elt). destruct (T _ _ _ E) as (Nx & O & n1 & f1 & r1 & X & F1).
    assert (Nb : x <> b) by (intros ->; auto). split; [exact Nx|]. split; [apply Or', I|]. exists n1, f1, r1. split; [rewrite Old; [exact X|exact Nb|eapply nth_lt, X]|].
    intros d D. apply F1. assert (C : child (s_heap s) x r1) by (eexists; split; [exact X|left; reflexivity]).
    apply Fr in D; [exact D| |eapply child_lt; eassumption]. intros ->. exact (Ob _ C).
  - intros v x I. destruct (V _ _ I) as (q1 & n1 & f1 & r1 & c1 & E & Q1). destruct (Nat.eq_dec x b) as [->|N].
    + rewrite B in E. injection E as <- <- <- <- <-. eauto 10.
    + exists q1, n1, f1, r1, c1. split; [|exact Q1]. rewrite Old; [exact E|exact N|eapply nth_lt, E].
Qed.

(** [b] keeps its children, or gets [y], which belongs to nothing. *)
Lemma put_made s0 s E b q n f rs sc q' n' f' rs' sc' :
  made s0 s E b -> nth_error (s_heap s) b = Some (CBinding q n f rs sc) -> (q <> QThe -> q' <> QThe) ->
  (forall x, In x (below (CBinding q' n' f' rs' sc')) -> In x (below (CBinding q n f rs sc)) \/ (x <> b /\ made s0 s (Or E (eq b)) x)) ->
  NoDup (below (CBinding q' n' f' rs' sc')) ->
  made s0 (put s b (CBinding q' n' f' rs' sc')) E b.
Proof.
  intros M B Q Ch Tw. destruct M as [G X N S O T F]. assert (W := g_wf _ _ _ _ G). assert (L := nth_lt _ _ _ B).
  set (c' := CBinding q' n' f' rs' sc') in *.
  assert (Old : forall i, i <> b -> i < length (s_heap s) -> nth_error (set_nth b c' (s_heap s)) i = nth_error (s_heap s) i) by (intros; apply set_nth_other; auto).
  assert (B' : nth_error (set_nth b c' (s_heap s)) b = Some c') by (apply set_nth_same, L).
  assert (Nb : forall x, In x (below c') -> x <> b).
  { intros x I. destruct (Ch _ I) as [I0|[K _]]; [|exact K]. intros ->. apply (O b). exists (CBinding q n f rs sc). auto. }
  assert (Tb : forall x, In x (below c') -> ~ In x (s_the s)).
  { intros x I. destruct (Ch _ I) as [I0|[_ K]]; [|exact (m_the _ _ _ _ K)]. intros J. destruct (the_in _ _ _ (g_the _ _ _ _ G) J) as (Ox & _).
    apply (Ox b). exists (CBinding q n f rs sc). auto. }
  assert (Fr : forall r d, r <> b -> free (set_nth b c' (s_heap s)) r d -> free (s_heap s) r d) by (intros r d Nr; apply free_set; assumption).
  split.
  - eapply good_put; try eassumption.
    + eapply wf_set; try eassumption; try reflexivity; [intros K; exact (Nb _ K eq_refl)|]. intros x I. destruct (Ch _ I) as [I0|[_ K]]; [left; exact I0|right].
      split; [exact (m_stmt _ _ _ _ K)|exact (m_orphan _ _ _ _ K)].
    + intros x I. apply orphan_set; [exact L| |intros J; exact (Tb _ J I)]. exact (proj1 (the_in _ _ _ (g_the _ _ _ _ G) I)).
    + intros r d Nr _. apply Fr, Nr.
  - destruct X as [F0 T0 H0 I0]. split; auto. eapply fresh_set; [exact F0|exact B|reflexivity|exact N|].
    intros x I Sx. destruct (Ch _ I) as [J|[_ K]]; [|exact (m_new _ _ _ _ K)]. eapply (f_new _ _ F0); [exact N|eexists; split; [exact B|exact J]|exact Sx].
  - exact N.
  - eexists. split; [exact B'|reflexivity].
  - apply orphan_set; [exact L|exact O|]. intros I. exact (Nb _ I eq_refl).
  - exact T.
  - intros d D. eapply free_below in D; [|exact B']. destruct D as [(? & ? & D)|(x & I & D & Nd)]; [discriminate|]. specialize (Nd eq_refl).
    apply Fr in D; [|apply Nb, I]. destruct (Ch _ I) as [J|[_ K]].
    + apply F. econstructor 2; [exact B|exact J|exact D|]. intros _. exact Nd.
    + destruct (m_free _ _ _ _ K _ D) as [[Y|Y]|Y]; [left; exact Y|congruence|right; exact Y].
Qed.

Lemma put_atom s0 s E b c c0 : made s0 s E b -> nth_error (s_heap s) b = Some c0 -> binds c0 = true ->
  forall P x, atom (s_heap s) P x -> atom (set_nth b c (s_heap s)) P x.
Proof.
  intros M B K P x (cx & N & S & F). assert (Nx : x <> b) by (intros ->; rewrite B in N; injection N as ->; destruct cx; discriminate).
  exists cx. rewrite set_nth_other by auto. split; [exact N|]. split; [exact S|]. intros d D. apply F.
  eapply free_set; [eapply nth_lt, B|exact (m_orphan _ _ _ _ M)|exact Nx|exact D].
Qed.

Lemma alloc_binding q n f s z s' E : alloc (CBinding q n f None None) s = Ok (z, s') -> good s ->
  made s s' E z /\ s_vars s' = s_vars s /\ nth_error (s_heap s') z = Some (CBinding q n f None None).
Proof.
  intros A G. apply alloc_ok in A. destruct A as [-> ->]. split; [|split; [reflexivity|apply nth_snoc]].
  assert (Ch : forall x, ~ In x (below (CBinding q n f None None))) by (intros x []). split.
  - apply good_alloc; [exact G| |]; [split; [reflexivity|split; [intros _; constructor|]]|]; intros x I; destruct (Ch _ I).
  - apply ext_alloc; [exact G|apply ext_refl, G| |]; intros x I; destruct (Ch _ I).
  - apply le_n.
  - eexists. split; [apply nth_snoc|reflexivity].
  - apply orphan_new; [apply (g_wf _ _ _ _ G)|]. intros x I; destruct (Ch _ I).
  - cbn. intros I. apply (the_lt _ _ _ (g_the _ _ _ _ G)) in I. lia.
  - intros d D. eapply free_below in D; [|apply nth_snoc]. destruct D as [(? & ? & D)|(x & I & _)]; [discriminate|destruct (Ch _ I)].
Qed.

Lemma new_binding_ok q fo s b a s' E : new_binding q fo s = Ok (b, a, s') -> good s ->
  made s s' E b /\ s_vars s' = s_vars s /\ (exists n, nth_error (s_heap s') b = Some (CBinding q n false None None)) /\ atom (s_heap s') (eq b) a.
Proof.
  unfold new_binding. intros H G. minv H. injection E0 as <- <-. minv H. minv H. apply ret_ok in H. destruct H as [H <-]. injection H as <- <-.
  destruct (alloc_binding _ _ _ _ _ _ E E0 G) as (M & V & N).
  destruct (alloc_leaf _ _ _ _ (eq a0) E1 (m_good _ _ _ _ M) eq_refl eq_refl) as (G' & X & V' & At & T); [intros x []|intros; congruence|].
  cbn [s_vars] in V. split; [|split; [congruence|split; [|exact At]]].
  - eapply made_later; [|exact X|exact G']. eapply made_earlier; [| |exact M]; [exact G|exact (ext_refl s G)].
  - eexists. eapply ext_nth; eassumption.
Qed.

Lemma restrict_made s0 s E b y q n f u s' : made s0 s E b -> nth_error (s_heap s) b = Some (CBinding q n f None None) ->
  made s0 s (Or E (eq b)) y -> y <> b -> set_restriction b y s = Ok (u, s') ->
  made s0 s' E b /\ s_vars s' = s_vars s /\ nth_error (s_heap s') b = Some (CBinding q n f (Some y) None) /\
  (forall P x, atom (s_heap s) P x -> atom (s_heap s') P x).
Proof.
  intros M B My N H. apply set_restriction_ok in H. destruct H as (q1 & n1 & f1 & r1 & c1 & B1 & ->). rewrite B in B1. injection B1 as <- <- <- <- <-.
  split; [|split; [reflexivity|split; [apply set_nth_same; eapply nth_lt, B|eapply put_atom; [exact M|exact B|reflexivity]]]].
  eapply put_made; try eassumption; [tauto| |repeat constructor; intros []]. intros x [<-|[]]. right. auto.
Qed.
Lemma scope_made vf s0 s E b y q n f r z s' : made s0 s E b -> nth_error (s_heap s) b = Some (CBinding q n f r None) ->
  made s0 s (Or E (eq b)) y -> y <> b -> bind_scope vf (Some b) y s = Ok (z, s') ->
  made s0 s' E z /\ s_vars s' = s_vars s.
Proof.
  intros M B My N H. unfold bind_scope in H. destruct vf; [discriminate|]. cbn [bind_scope_fuel] in H. minv H. apply get_binding_ok in E0. destruct E0 as [-> B0].
  rewrite B in B0. injection B0 as Hq Hn Hf Hr Hs. rewrite <- Hs in H. minv H. minv H. subst z s'.
  apply set_scope_ok in E0. destruct E0 as (q1 & n1 & f1 & r1 & c1 & B1 & ->). rewrite B in B1. injection B1 as <- <- <- <- <-.
  split; [|reflexivity]. eapply put_made; try eassumption; [tauto| |].
  - intros x I. cbn [below] in *. destruct r; cbn in *; intuition (subst; auto).
  - destruct r as [r|]; repeat constructor; try (intros []; fail). intros [->|[]]. apply (m_orphan _ _ _ _ My b). eexists. split; [exact B|left; reflexivity].
Qed.
Lemma focus_made s0 s E b q n f r u s' : made s0 s E b -> nth_error (s_heap s) b = Some (CBinding q n f r None) -> set_focus b s = Ok (u, s') ->
  made s0 s' E b /\ s_vars s' = s_vars s /\ s_the s' = s_the s /\ nth_error (s_heap s') b = Some (CBinding q n true r None) /\
  (forall P x, atom (s_heap s) P x -> atom (s_heap s') P x).
Proof.
  intros M B H. apply set_focus_ok in H. destruct H as (q1 & n1 & f1 & r1 & c1 & B1 & ->). rewrite B in B1. injection B1 as <- <- <- <- <-.
  split; [|split; [reflexivity|split; [reflexivity|split; [apply set_nth_same; eapply nth_lt, B|eapply put_atom; [exact M|exact B|reflexivity]]]]].
  eapply put_made; try eassumption; [tauto| |exact (w_two _ (g_wf _ _ _ _ (m_good _ _ _ _ M)) _ _ B eq_refl)]. intros x I. left. exact I.
Qed.
Lemma quantifier_made s0 s E b q q' n f r u s' : made s0 s E b -> nth_error (s_heap s) b = Some (CBinding q n f r None) -> q' <> QThe ->
  set_quantifier b q' s = Ok (u, s') ->
  made s0 s' E b /\ s_vars s' = s_vars s /\ s_the s' = s_the s /\ nth_error (s_heap s') b = Some (CBinding q' n f r None) /\
  (forall P x, atom (s_heap s) P x -> atom (s_heap s') P x).
Proof.
  intros M B Q H. apply set_quantifier_ok in H. destruct H as (q1 & n1 & f1 & r1 & c1 & B1 & ->). rewrite B in B1. injection B1 as <- <- <- <- <-.
  split; [|split; [reflexivity|split; [reflexivity|split; [apply set_nth_same; eapply nth_lt, B|eapply put_atom; [exact M|exact B|reflexivity]]]]].
  eapply put_made; try eassumption; [auto| |exact (w_two _ (g_wf _ _ _ _ (m_good _ _ _ _ M)) _ _ B eq_refl)]. intros x I. left. exact I.
Qed.

Lemma and_made s0 s E b y q n f r0 k z s1 u s' : made s0 s E b -> nth_error (s_heap s) b = Some (CBinding q n f (Some r0) None) ->
  made s0 s (Or E (eq b)) y -> y <> b -> alloc (CConnection k r0 y) s = Ok (z, s1) -> set_restriction b z s1 = Ok (u, s') ->
  made s0 s' E b /\ s_vars s' = s_vars s /\ nth_error (s_heap s') b = Some (CBinding q n f (Some z) None) /\ s_the s' = s_the s /\
  (forall P x, atom (s_heap s) P x -> atom (s_heap s') P x).
Proof.
  intros M B My N A H. apply alloc_ok in A. destruct A as [-> ->]. apply set_restriction_ok in H. destruct H as (q1 & n1 & f1 & r1 & c1 & B1 & ->).
  cbn [s_heap with_heap] in B1. assert (L := nth_lt _ _ _ B). rewrite nth_snoc_old in B1 by exact L. rewrite B in B1. injection B1 as <- <- <- <- <-.
  destruct M as [G X Nw S O T F]. assert (W := g_wf _ _ _ _ G). unfold put. cbn [s_heap with_heap].
  set (conn := CConnection k r0 y). set (c' := CBinding q n f (Some (length (s_heap s))) None). set (h' := set_nth b c' (s_heap s ++ [conn])).
  assert (Cr : child (s_heap s) b r0) by (eexists; split; [exact B|left; reflexivity]).
  assert (Lr := child_lt _ _ _ W Cr). assert (Nr : r0 <> b) by (intros ->; exact (O _ Cr)). assert (Ly := stmt_lt _ _ (m_stmt _ _ _ _ My)).
  assert (W' : wf h') by (apply wf_and with (q := q); try assumption; [exact (m_stmt _ _ _ _ My)|exact (m_orphan _ _ _ _ My)]).
  assert (Lt : forall x, In x (below conn) -> x < length (s_heap s)) by (intros x [<-|[<-|[]]]; assumption).
  assert (Ob1 : orphan (s_heap s ++ [conn]) b) by (apply orphan_snoc; [exact O|intros [K|[K|[]]]; congruence]).
  assert (Lb : b < length (s_heap s ++ [conn])) by (rewrite app_length; lia).
  assert (Fr : forall r d, r <> b -> r < length (s_heap s) -> free h' r d -> free (s_heap s) r d).
  { intros r d Rb Rl D. apply free_set in D; [|assumption..]. apply free_snoc in D; assumption. }
  assert (B' : nth_error h' b = Some c') by (apply set_nth_same, Lb).
  assert (C' : nth_error h' (length (s_heap s)) = Some conn) by (unfold h'; rewrite set_nth_other by lia; apply nth_snoc).
  assert (Old : forall i, i <> b -> i < length (s_heap s) -> nth_error h' i = nth_error (s_heap s) i).
  { intros i Ni Li. unfold h'. rewrite set_nth_other by auto. apply nth_snoc_old, Li. }
  assert (Orx : forall x, orphan (s_heap s) x -> x <> r0 -> x <> y -> x < length (s_heap s) -> orphan h' x).
  { intros x Ox N1 N2 Lx. apply orphan_set; [exact Lb| |intros [K|[]]; lia]. apply orphan_snoc; [exact Ox|intros [K|[K|[]]]; congruence]. }
  split; [|split; [reflexivity|split; [exact B'|split; [reflexivity|]]]]; cycle 1.
  { intros P x (cx & Nx & Sx & Fx). assert (Nb : x <> b) by (intros ->; rewrite B in Nx; injection Nx as <-; discriminate).
    assert (Lx := nth_lt _ _ _ Nx). exists cx. cbn [s_heap with_heap]. rewrite Old by assumption. split; [exact Nx|]. split; [exact Sx|].
    intros d D. apply Fx, Fr; assumption. }
  split.
  - eapply (good_put s h' b q n f (Some r0) None); try eassumption; [tauto|].
    intros x I. destruct (the_in _ _ _ (g_the _ _ _ _ G) I) as (Ox & _). apply Orx; [exact Ox| | |eapply the_lt; [apply (g_the _ _ _ _ G)|exact I]].
    + intros ->. exact (Ox _ Cr).
    + intros ->. exact (m_the _ _ _ _ My I).
  - destruct X as [F0 T0 H0 I0]. split; auto. cbn [s_heap with_heap]. unfold h'.
    eapply fresh_set with (c0 := CBinding q n f (Some r0) None).
    + apply fresh_snoc; [exact W|exact F0| |exact Lt]. intros x [<-|[<-|[]]] Sx; [|exact (m_new _ _ _ _ My)].
      eapply (f_new _ _ F0); [exact Nw|exact Cr|exact Sx].
    + rewrite nth_snoc_old by exact L. exact B.
    + reflexivity.
    + exact Nw.
    + intros x [<-|[]] _. apply (f_len _ _ F0).
  - exact Nw.
  - eexists. split; [exact B'|reflexivity].
  - apply Orx; try assumption; auto.
  - exact T.
  - intros d D. eapply free_below in D; [|exact B']. destruct D as [(? & ? & D)|(x & I & D & Nd)]; [discriminate|]. specialize (Nd eq_refl).
    destruct I as [<-|[]]. eapply free_below in D; [|exact C']. destruct D as [(? & ? & D)|(x & I & D & _)]; [discriminate|].
    apply Fr in D; [|destruct I as [<-|[<-|[]]]; auto|apply Lt, I].
    destruct I as [<-|[<-|[]]].
    + apply F. econstructor 2; [exact B|left; reflexivity|exact D|]. intros _. exact Nd.
    + destruct (m_free _ _ _ _ My _ D) as [[K|K]|K]; [left; exact K|congruence|right; exact K].
Qed.
