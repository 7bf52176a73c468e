(** Proofs about orderArguments and merge. *)

From Coq Require Import String List Bool Arith Lia Permutation Sorted.
From Verif Require Import Base Logic LogicSpec Interp Simplify.
Import ListNotations.
Open Scope list_scope.
Open Scope nat_scope.

Lemma set_nth_length {A} n (x : A) l : length (set_nth n x l) = length l.
Proof. revert n; induction l; intros [|n]; cbn; auto. Qed.
Lemma set_nth_same {A} n (x : A) l : n < length l -> nth_error (set_nth n x l) n = Some x.
Proof. revert n; induction l; intros [|n]; cbn; intros; try lia; auto. apply IHl; lia. Qed.
Lemma set_nth_other {A} n m (x : A) l : n <> m -> nth_error (set_nth n x l) m = nth_error l m.
Proof. revert n m; induction l; intros [|n] [|m]; cbn; intros; try lia; auto. Qed.

Section Order.
Context {A : Type}.
Notation args := (list (A * nat)).

Lemma nargs_gen (a : args) : forall m,
  fold_left (fun n x => if n <? snd x then snd x else n) a m = list_max (m :: map snd a).
Proof.
  unfold list_max. induction a as [|x a IH]; intros m; cbn [fold_left map fold_right]; [lia|].
  rewrite IH. cbn [fold_right]. destruct (Nat.ltb_spec m (snd x)); lia.
Qed.
Lemma nargs_max (a : args) : nargs a = list_max (length a :: map snd a).
Proof. apply nargs_gen. Qed.

Lemma list_max_In n l : In n l -> n <= list_max l.
Proof. unfold list_max. induction l as [|m l IH]; cbn; [easy|]. intros [->|H]; [lia|specialize (IH H); lia]. Qed.

(** The slots after the first loop. *)
Lemma place_linked_cons x p (a : args) l :
  place_linked ((x, p) :: a) l = place_linked a (match p with 0 => l | S p => set_nth p (Some x) l end).
Proof. reflexivity. Qed.
Lemma linked_length (a : args) l : length (place_linked a l) = length l.
Proof.
  revert l. induction a as [|[x [|p]] a IH]; intros l; [reflexivity| |]; rewrite place_linked_cons, IH; [reflexivity|]. apply set_nth_length.
Qed.
Lemma linked_none (a : args) : forall l p, is_linked a p = false -> nth_error (place_linked a l) p = nth_error l p.
Proof.
  induction a as [|[x [|q]] a IH]; intros l p H; [reflexivity|rewrite place_linked_cons; apply IH, H|].
  rewrite place_linked_cons. cbn in H. apply orb_false_iff in H. destruct H as [H1 H2]. rewrite IH by exact H2. apply set_nth_other.
  apply Nat.eqb_neq in H1. congruence.
Qed.
Lemma linked_some (a : args) : forall l p x, linked_at a p x -> p < length l -> nth_error (place_linked a l) p = Some (Some x).
Proof.
  intros l p x (pre & post & -> & N) L. unfold place_linked. rewrite fold_left_app. cbn.
  change (nth_error (place_linked post (set_nth p (Some x) (place_linked pre l))) p = Some (Some x)).
  rewrite linked_none. { apply set_nth_same. rewrite linked_length; exact L. }
  unfold is_linked. apply not_true_is_false. intros H. apply existsb_exists in H. destruct H as ([y q] & I & E).
  apply Nat.eqb_eq in E. cbn in E. subst q. exact (N y I).
Qed.
Lemma linked_exists (a : args) p : is_linked a p = true -> exists x, linked_at a p x.
Proof.
  induction a as [|[x q] a IH]; [discriminate|]. intros H. change ((q =? S p) || is_linked a p = true) in H.
  destruct (is_linked a p) eqn:E.
  - destruct (IH eq_refl) as (y & pre & post & -> & N). exists y, ((x, q) :: pre), post. split; [reflexivity|exact N].
  - rewrite orb_false_r in H. apply Nat.eqb_eq in H. subst q. exists x, [], a. split; [reflexivity|].
    intros y I. unfold is_linked in E. assert (existsb (fun y => snd y =? S p) a = true).
    { apply existsb_exists. exists (y, S p). split; [exact I|apply Nat.eqb_refl]. } congruence.
Qed.

(** The entries of [l] where the mask [m] is true. *)
Definition sel {B} (m : list bool) (l : list B) : list B := map snd (filter fst (combine m l)).

Lemma next_empty_spec (x : A) : forall m l done k,
  length m = length l ->
  (forall i, nth_error m i = Some false -> exists y, nth_error l i = Some (Some y)) ->
  sel m l = map Some done ++ repeat None (S k) ->
  exists l', next_empty l x = Ok l' /\ length l' = length l /\
    (forall i, nth_error m i = Some false -> nth_error l' i = nth_error l i) /\
    sel m l' = map Some (done ++ [x]) ++ repeat None k.
Proof.
  induction m as [|b m IH]; intros [|o l] done k L F S; try discriminate L.
  - destruct done; discriminate S.
  - injection L as L. destruct b; cbn in S.
    + destruct o as [y|].
      * destruct done as [|d done]; [discriminate S|]. cbn in S. injection S as <- S.
        destruct (IH l done k L (fun i => F (Datatypes.S i)) S) as (l' & E & EL & P & S').
        exists (Some y :: l'). cbn [next_empty]. rewrite E. cbn. split; [reflexivity|]. split; [congruence|].
        split; [intros [|i]; cbn; [reflexivity|apply P]|]. unfold sel in *. cbn. now rewrite S'.
      * destruct done as [|d done]; [|discriminate S]. cbn in S. injection S as S.
        exists (Some x :: l). split; [reflexivity|]. split; [reflexivity|].
        split; [intros [|i]; cbn; [discriminate|reflexivity]|]. unfold sel in *. cbn. now rewrite S.
    + destruct (F 0 eq_refl) as (y & Ey). cbn in Ey. injection Ey as ->.
      destruct (IH l done k L (fun i => F (Datatypes.S i)) S) as (l' & E & EL & P & S').
      exists (Some y :: l'). cbn [next_empty]. rewrite E. cbn. split; [reflexivity|]. split; [congruence|].
      split; [intros [|i]; cbn; [reflexivity|apply P]|]. exact S'.
Qed.

Lemma place_unlinked_spec (a : args) : forall m l done k,
  length m = length l ->
  (forall i, nth_error m i = Some false -> exists y, nth_error l i = Some (Some y)) ->
  sel m l = map Some done ++ repeat None (length (unlinked a) + k) ->
  exists l', place_unlinked a l = Ok l' /\ length l' = length l /\
    (forall i, nth_error m i = Some false -> nth_error l' i = nth_error l i) /\
    sel m l' = map Some (done ++ unlinked a) ++ repeat None k.
Proof.
  induction a as [|[x [|p]] a IH]; intros m l done k L F S.
  - exists l. cbn in *. rewrite app_nil_r. auto.
  - cbn in S.
    destruct (next_empty_spec x m l done _ L F S) as (l1 & E1 & L1 & P1 & S1).
    cbn [place_unlinked]. rewrite E1. cbn [bind].
    destruct (IH m l1 (done ++ [x]) k) as (l2 & E2 & L2 & P2 & S2); [congruence| |exact S1|].
    { intros i Hi. rewrite P1 by exact Hi. apply F, Hi. }
    exists l2. split; [exact E2|]. split; [congruence|].
    split; [intros i Hi; rewrite P2, P1 by exact Hi; reflexivity|]. rewrite S2. cbn. now rewrite <- app_assoc.
  - cbn in *. apply IH; assumption.
Qed.

Definition mask (a : args) (n : nat) : list bool := map (fun p => negb (is_linked a p)) (seq 0 n).
Lemma mask_length a n : length (mask a n) = n.
Proof. unfold mask. now rewrite map_length, seq_length. Qed.
Lemma mask_nth a n p b : nth_error (mask a n) p = Some b -> p < n /\ b = negb (is_linked a p).
Proof.
  unfold mask. intros H. assert (p < n) by (rewrite <- (mask_length a n); apply nth_error_Some; unfold mask; congruence).
  split; [assumption|]. rewrite nth_error_map in H. replace (nth_error (seq 0 n) p) with (Some p) in H; [cbn in H; congruence|].
  symmetry. rewrite (nth_error_nth' _ 0) by (rewrite seq_length; assumption). now rewrite seq_nth.
Qed.

Lemma sel_free (a : args) l : sel (mask a (length l)) l = free_slots a l.
Proof.
  unfold sel, mask, free_slots. generalize 0. induction l as [|o l IH]; intros i; cbn; [reflexivity|].
  destruct (is_linked a i); cbn; rewrite IH; reflexivity.
Qed.

Lemma all_None (l : list (option A)) : (forall i o, nth_error l i = Some o -> o = None) -> l = repeat None (length l).
Proof.
  induction l as [|o l IH]; intros H; cbn; [reflexivity|]. rewrite (H 0 o eq_refl). f_equal. apply IH. intros i. apply (H (S i)).
Qed.

Lemma free_slots_linked (a : args) l : (forall p, p < length l -> is_linked a p = false -> nth_error l p = Some None) ->
  free_slots a l = repeat None (length (filter (fun p => negb (is_linked a p)) (seq 0 (length l)))).
Proof.
  unfold free_slots. intros H.
  assert (G : forall i (l : list (option A)), (forall p, p < length l -> is_linked a (i + p) = false -> nth_error l p = Some None) ->
    map snd (filter (fun ix => negb (is_linked a (fst ix))) (combine (seq i (length l)) l)) =
    repeat None (length (filter (fun p => negb (is_linked a p)) (seq i (length l))))).
  { intros i l0. revert i. induction l0 as [|o l0 IH]; intros i G; cbn; [reflexivity|].
    assert (G' : forall p, p < length l0 -> is_linked a (S i + p) = false -> nth_error l0 p = Some None).
    { intros p P Q. apply (G (S p)); [cbn; lia|]. rewrite <- Q. f_equal. lia. }
    specialize (IH (S i) G'). destruct (is_linked a i) eqn:E; cbn; rewrite IH; [reflexivity|].
    specialize (G 0). rewrite Nat.add_0_r in G. cbn in G. f_equal. assert (X := G (Nat.lt_0_succ _) E). congruence. }
  apply (G 0). exact H.
Qed.

Lemma count_linked (a : args) n :
  length (filter (is_linked a) (seq 0 n)) <= length (filter (fun y => negb (snd y =? 0)) a).
Proof.
  induction a as [|[x q] a IH].
  - cbn. induction (seq 0 n); cbn; auto.
  - destruct q as [|p]; cbn [filter snd Nat.eqb negb length].
    + exact IH.
    + assert (G : forall l, NoDup l ->
        length (filter (is_linked ((x, S p) :: a)) l) <= (if in_dec Nat.eq_dec p l then 1 else 0) + length (filter (is_linked a) l)).
      { induction l as [|q l IHl]; intros N; [cbn; lia|]. inversion N as [|? ? N1 N2]; subst. specialize (IHl N2).
        cbn [filter]. unfold is_linked at 1. cbn [existsb snd]. fold (is_linked a q).
        destruct (Nat.eqb_spec (S p) (S q)) as [E|NE].
        - injection E as ->. destruct (in_dec Nat.eq_dec q l) as [I|I]; [contradiction|].
          destruct (in_dec Nat.eq_dec q (q :: l)) as [J|J]; [|elim J; left; reflexivity].
          cbn [orb length]. destruct (is_linked a q); cbn [length]; lia.
        - destruct (in_dec Nat.eq_dec p (q :: l)) as [J|J]; destruct (in_dec Nat.eq_dec p l) as [I|I];
            try (elim J; right; exact I); try (destruct J as [J|J]; [congruence|contradiction]);
            cbn [orb]; destruct (is_linked a q); cbn [length]; lia. }
      specialize (G (seq 0 n) (seq_NoDup _ _)). destruct (in_dec _ _ _); lia.
Qed.

Lemma filter_compl {B} (f : B -> bool) l : length (filter f l) + length (filter (fun x => negb (f x)) l) = length l.
Proof. induction l as [|x l IH]; cbn; [reflexivity|]. destruct (f x); cbn; lia. Qed.

Theorem order_spec (a : args) : exists l k,
  order_arguments a = Ok l /\
  length l = list_max (length a :: map snd a) /\
  (forall p x, linked_at a p x -> nth_error l p = Some (Some x)) /\
  free_slots a l = map Some (unlinked a) ++ repeat None k.
Proof.
  unfold order_arguments. set (n := nargs a). set (l0 := place_linked a (repeat None n)).
  assert (L0 : length l0 = n) by (unfold l0; now rewrite linked_length, repeat_length).
  assert (B : forall p x, linked_at a p x -> p < n).
  { intros p x (pre & post & E & _). unfold n. rewrite nargs_max. enough (S p <= list_max (length a :: map snd a)) by lia.
    apply list_max_In. right. rewrite E, map_app. apply in_or_app. right. left. reflexivity. }
  assert (N0 : forall p, p < n -> is_linked a p = false -> nth_error l0 p = Some None).
  { intros p P E. unfold l0. rewrite linked_none by exact E. apply nth_error_repeat. exact P. }
  assert (S0 : sel (mask a (length l0)) l0 = map Some [] ++ repeat None (length (unlinked a) + (length (filter (fun p => negb (is_linked a p)) (seq 0 n)) - length (unlinked a)))).
  { rewrite sel_free, free_slots_linked by (rewrite L0; exact N0). rewrite L0. cbn. f_equal.
    assert (C := count_linked a n). assert (D := filter_compl (is_linked a) (seq 0 n)). rewrite seq_length in D.
    assert (D' := filter_compl (fun y : A * nat => snd y =? 0) a). unfold unlinked. rewrite map_length.
    assert (length a <= n) by (unfold n; rewrite nargs_max; apply list_max_In; left; reflexivity). lia. }
  assert (F0 : forall i, nth_error (mask a (length l0)) i = Some false -> exists y, nth_error l0 i = Some (Some y)).
  { intros i H. apply mask_nth in H. destruct H as [H1 H2]. symmetry in H2. apply negb_false_iff in H2.
    destruct (linked_exists _ _ H2) as (x & X). exists x. apply linked_some; [exact X|]. rewrite repeat_length. now rewrite <- L0. }
  destruct (place_unlinked_spec a _ _ _ _ (mask_length _ _) F0 S0) as (l & E & L & P & S).
  exists l, (length (filter (fun p => negb (is_linked a p)) (seq 0 n)) - length (unlinked a)).
  split; [exact E|]. split; [rewrite L, L0; apply nargs_max|].
  split; [|rewrite <- sel_free, L; exact S].
  intros p x X. rewrite P. { apply linked_some; [exact X|]. rewrite repeat_length. exact (B p x X). }
  unfold mask. rewrite nth_error_map, L0. rewrite (nth_error_nth' _ 0) by (rewrite seq_length; exact (B p x X)).
  rewrite seq_nth by exact (B p x X). cbn. f_equal. apply negb_false_iff. unfold is_linked. apply existsb_exists.
  destruct X as (pre & post & -> & _). exists (x, Datatypes.S p). split; [apply in_or_app; right; left; reflexivity|apply Nat.eqb_refl].
Qed.

End Order.

(** ** merge *)

Lemma insert_In x y l : In y (insert x l) <-> y = x \/ In y l.
Proof.
  induction l as [|z l IH]; cbn; [intuition auto|]. destruct (x <=? z); cbn; [intuition auto|]. rewrite IH. intuition auto.
Qed.
Lemma sort_cons x l : sort (x :: l) = insert x (sort l).
Proof. reflexivity. Qed.
Lemma sort_In y l : In y (sort l) <-> In y l.
Proof. induction l as [|x l IH]; [reflexivity|]. rewrite sort_cons, insert_In, IH. cbn. intuition auto. Qed.
Lemma insert_length x l : length (insert x l) = S (length l).
Proof. induction l as [|z l IH]; cbn; [reflexivity|]. destruct (x <=? z); cbn; auto. Qed.
Lemma sort_length l : length (sort l) = length l.
Proof. induction l as [|x l IH]; [reflexivity|]. rewrite sort_cons, insert_length, IH. reflexivity. Qed.
Lemma insert_sorted x l : Sorted le l -> Sorted le (insert x l).
Proof.
  induction l as [|y l IH]; intros S; cbn; [repeat constructor|].
  destruct (Nat.leb_spec x y) as [L|L]; [constructor; [exact S|constructor; exact L]|].
  inversion S as [|? ? S1 S2]; subst. constructor; [auto|].
  destruct l as [|z l]; cbn; [constructor; lia|]. destruct (x <=? z); constructor; [lia|]. inversion S2; auto.
Qed.
Lemma sort_sorted l : Sorted le (sort l).
Proof. induction l; [constructor|]. rewrite sort_cons. apply insert_sorted; assumption. Qed.

Lemma distinct_In y : forall l x, StronglySorted le (x :: l) -> (In y (x :: distinct x l) <-> In y (x :: l)).
Proof.
  induction l as [|z l IH]; intros x S; [reflexivity|].
  inversion S as [|? ? S1 S2]; subst. inversion S2 as [|? ? S3 S4]; subst. cbn [distinct].
  destruct (Nat.ltb_spec x z) as [H|H].
  - specialize (IH z S1). split; (intros [H1|H1]; [left; exact H1|right; apply IH, H1]).
  - assert (x = z) by lia. subst z. rewrite (IH x S1). split; intros H1; [right; exact H1|].
    destruct H1 as [H1|H1]; [left; exact H1|exact H1].
Qed.

Lemma skipn_In {B} (y : B) n l : In y (skipn n l) -> In y l.
Proof. revert l; induction n; intros [|x l]; cbn; auto. Qed.

Lemma distinct_length : forall l x, length (distinct x l) <= length l.
Proof.
  induction l as [|z l IH]; intros x; cbn [distinct]; [lia|]. pose proof (IH z) as A. pose proof (IH x) as B.
  destruct (x <? z); cbn [length]; lia.
Qed.

Theorem merge_union l r y : In y (merge l r) <-> In y l \/ In y r.
Proof.
  unfold merge. destruct l as [|a l]; [cbn; intuition auto|]. set (s := sort ((a :: l) ++ r)).
  assert (I : In y s <-> In y (a :: l) \/ In y r) by (unfold s; rewrite sort_In, in_app_iff; reflexivity).
  rewrite <- I. assert (Ss : StronglySorted le s) by (apply Sorted_StronglySorted; [intros ? ? ?; lia|apply sort_sorted]).
  clearbody s. destruct s as [|x s]; [reflexivity|]. rewrite in_app_iff, (distinct_In y s x Ss). split; [|auto].
  intros [H|H]; [exact H|]. apply skipn_In in H. exact H.
Qed.

(** The result is a slice of both lengths together. *)
Theorem merge_length l r : length (merge l r) = length l + length r.
Proof.
  unfold merge. destruct l as [|a l]; [reflexivity|].
  assert (L : length (sort ((a :: l) ++ r)) = length (a :: l) + length r) by (rewrite sort_length; apply app_length).
  rewrite <- L. destruct (sort ((a :: l) ++ r)) as [|x s]; [reflexivity|]. cbv zeta. rewrite app_length, skipn_length.
  pose proof (distinct_length s x). cbn [length]. lia.
Qed.

Lemma Sorted_skipn n : forall l, StronglySorted le l -> StronglySorted le (skipn n l).
Proof. induction n; intros [|x l] S; cbn; auto. inversion S; auto. Qed.
Lemma distinct_sorted : forall l x, StronglySorted le (x :: l) -> StronglySorted lt (x :: distinct x l).
Proof.
  intros l x S. apply Sorted_StronglySorted; [intros ? ? ?; lia|].
  revert x S. induction l as [|z l IH]; intros x S; [repeat constructor|].
  inversion S as [|? ? S1 S2]; subst. inversion S2; subst. cbn [distinct]. destruct (Nat.ltb_spec x z) as [H'|H'].
  - constructor; [apply IH; exact S1|]. constructor. exact H'.
  - assert (x = z) by lia. subst z. apply IH, S1.
Qed.

(** If l and r are sorted, disjoint and without duplicates, so is the result. *)
Theorem merge_sorted l r :
  StronglySorted lt l -> StronglySorted lt r -> (forall x, In x l -> ~ In x r) -> StronglySorted lt (merge l r).
Proof.
  intros Sl Sr D. unfold merge. destruct l as [|a l]; [exact Sr|]. set (s := sort ((a :: l) ++ r)).
  assert (NDs : forall q, StronglySorted lt q -> NoDup q).
  { induction q as [|x q IH]; intros S; [constructor|]. inversion S as [|? ? S1 S2]; subst. constructor; [|auto].
    intros I. rewrite Forall_forall in S2. specialize (S2 _ I). lia. }
  assert (N : NoDup ((a :: l) ++ r)).
  { generalize (NDs _ Sl) (NDs _ Sr) D. generalize (a :: l). intros q Nq Nr Dq. induction q as [|x q IH]; cbn; [exact Nr|].
    inversion Nq; subst. constructor.
    - rewrite in_app_iff. intros [H|H]; [contradiction|]. exact (Dq x (or_introl eq_refl) H).
    - apply IH; [assumption|]. intros y Y. apply Dq. right; exact Y. }
  assert (P : forall q, Permutation q (sort q)).
  { assert (Pi : forall x q, Permutation (x :: q) (insert x q)).
    { intros x q. induction q as [|y q IH]; cbn; [reflexivity|]. destruct (x <=? y); [reflexivity|].
      rewrite perm_swap. constructor. exact IH. }
    induction q as [|x q IH]; [constructor|]. rewrite sort_cons, <- Pi. constructor. exact IH. }
  assert (Ns : NoDup s) by (apply (Permutation_NoDup (P _) N)).
  assert (Ss : StronglySorted le s) by (apply Sorted_StronglySorted; [intros ? ? ?; lia|apply sort_sorted]).
  clearbody s. destruct s as [|x s]; [constructor|].
  assert (E : distinct x s = s).
  { clear - Ns Ss. revert x Ns Ss. induction s as [|z s IH]; intros x Ns Ss; [reflexivity|].
    inversion Ss as [|? ? S1 S2]; subst. inversion S2; subst. inversion Ns as [|? ? N1 N2]; subst.
    cbn [distinct]. destruct (Nat.ltb_spec x z); [f_equal; apply IH; assumption|]. assert (x = z) by lia. subst. elim N1. left; reflexivity. }
  rewrite E. rewrite skipn_all, app_nil_r. rewrite <- E. apply distinct_sorted, Ss.
Qed.

Lemma merge_unsorted : exists l r, StronglySorted lt l /\ StronglySorted lt r /\
  ~ StronglySorted le (merge l r) /\ ~ NoDup (merge l r).
Proof.
  exists [0; 1], [0; 1; 2]. split; [repeat constructor|]. split; [repeat constructor|]. vm_compute (merge _ _). split.
  - intros H. inversion H as [|? ? H1 _]; subst. inversion H1 as [|? ? H2 _]; subst. inversion H2 as [|? ? _ H3]; subst. inversion H3; subst. lia.
  - intros H. repeat (match goal with H : NoDup (_ :: _) |- _ => inversion H; clear H; subst end). cbn in *. intuition auto.
Qed.
