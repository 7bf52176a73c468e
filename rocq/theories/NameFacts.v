(** The orders in which maps are iterated do not change a logical form or how it is
    printed; the names of variables. *)

From Coq Require Import String NArith List Bool Arith Lia Permutation.
From Verif Require Import Base Utf8 Tone ToneSpec ToneFacts Ast AstSorts Logic LogicWords Interp Simplify LogicString LogicFuel OrderFacts.
Import ListNotations.
Open Scope string_scope.
Open Scope list_scope.
Open Scope nat_scope.

(** ** The table of o-letters *)

Lemma o_letters_In d r : In r (map fst (o_letters d)) <->
  exists t l f, In (t, l, f) (flatten d) /\ (l = "o" \/ l = "O") /\ r = rune_of f.
Proof.
  unfold o_letters. rewrite in_map_iff. split.
  - intros ([r' t'] & <- & H). apply in_flat_map in H. destruct H as ([[t l] f] & I & H).
    destruct (String.eqb l "o" || String.eqb l "O") eqn:E; [|contradiction]. destruct H as [H|[]]. injection H as <- <-.
    exists t, l, f. split; [exact I|]. split; [|reflexivity]. apply orb_true_iff in E.
    destruct E as [E|E]; apply String.eqb_eq in E; auto.
  - intros (t & l & f & I & L & ->). exists (rune_of f, t). split; [reflexivity|]. apply in_flat_map. exists (t, l, f).
    split; [exact I|]. destruct L as [-> | ->]; left; reflexivity.
Qed.

Lemma find_dom {B} (l l' : list (N * B)) r :
  (forall r, In r (map fst l) <-> In r (map fst l')) ->
  (exists o, find (fun o => (fst o =? r)%N) l = Some o) <-> (exists o, find (fun o => (fst o =? r)%N) l' = Some o).
Proof.
  intros H.
  assert (G : forall q : list (N * B), (exists o, find (fun o => (fst o =? r)%N) q = Some o) <-> In r (map fst q)).
  { induction q as [|[k b] q IH]; cbn; [split; [intros [o H0]; discriminate|contradiction]|].
    destruct (N.eqb_spec k r); [split; eauto|]. rewrite IH. intuition congruence. }
  rewrite !G. apply H.
Qed.

Lemma is_variable_dom U ol ol' : (forall r, In r (map fst ol) <-> In r (map fst ol')) ->
  forall n, is_variable U ol n = is_variable U ol' n.
Proof.
  intros H n. destruct n; cbn; try reflexivity. unfold split_var. destruct (w_t w) as [|c rest]; [reflexivity|].
  destruct (negb _); [reflexivity|]. destruct (decode_rune rest) as [r k].
  assert (G := find_dom ol ol' r H).
  destruct (find _ ol) as [o|], (find _ ol') as [o'|]; try reflexivity.
  - destruct (_ && _); reflexivity.
  - destruct (proj1 G) as [x X]; [eauto|discriminate].
  - destruct (proj2 G) as [x X]; [eauto|discriminate].
Qed.

Theorem o_order_irrelevant U d' : reordered diacritic d' -> forall fuel d,
  interpret U (o_letters d') fuel d = interpret U (o_letters diacritic) fuel d.
Proof.
  intros R fuel d.
  assert (O : forall n, is_variable U (o_letters d') n = is_variable U (o_letters diacritic) n).
  { apply is_variable_dom. intros r. rewrite !o_letters_In. assert (F := reordered_flatten _ _ R).
    split; intros (t & l & f & I & X); exists t, l, f; (split; [apply F, I|exact X]). }
  destruct (le_interpret U _ _ O fuel fuel d (le_n _)) as [E|E]; [|exact E].
  destruct (le_interpret U _ _ (fun n => eq_sym (O n)) fuel fuel d (le_n _)) as [E'|E']; congruence.
Qed.

(** ** The names *)

Lemma set_nth_comm {A} n m (x y : A) l : n <> m -> set_nth n x (set_nth m y l) = set_nth m y (set_nth n x l).
Proof. revert n m; induction l; intros [|n] [|m]; cbn; intros; try lia; auto. f_equal. apply IHl. lia. Qed.

Lemma assign_perm l l' : Permutation l l' -> NoDup (map fst l) -> forall names, assign_names l names = assign_names l' names.
Proof.
  intros P. induction P as [|[v s] l l' P IH|[v s] [v' s'] l|l1 l2 l3 P1 IH1 P2 IH2]; intros N names.
  - reflexivity.
  - cbn [assign_names]. inversion N; subst. destruct (v <? length names); [|reflexivity]. apply IH. assumption.
  - inversion N as [|? ? N1 N2]; subst. cbn [assign_names]. rewrite !set_nth_length.
    destruct (v <? length names), (v' <? length names); try reflexivity. rewrite set_nth_comm; [reflexivity|].
    cbn in N1. intuition.
  - rewrite IH1 by exact N. apply IH2. eapply Permutation_NoDup; [apply Permutation_map, P1|exact N].
Qed.

Lemma indexed_fst r : forall vs i, map fst (indexed r i vs) = vs.
Proof. induction vs; intros i; cbn; [reflexivity|]. now rewrite IHvs. Qed.
Lemma assignments_fst r vs : Permutation (map fst (name_assignments r vs)) vs.
Proof.
  unfold name_assignments. destruct (String.eqb r "X").
  - destruct vs as [|a [|b [|c [|d vs]]]]; cbn; try reflexivity; [apply perm_swap|apply (Permutation_rev [c; b; a])|].
    now rewrite indexed_fst.
  - destruct vs as [|a [|b vs]]; cbn; try reflexivity. now rewrite indexed_fst.
Qed.

Lemma numbers_In seen r v : In v (numbers seen r) <-> In (v, r) seen.
Proof.
  unfold numbers. rewrite in_map_iff. split.
  - intros ([v' r'] & <- & H). apply filter_In in H. destruct H as [H E]. apply String.eqb_eq in E. cbn in *. now subst.
  - intros H. exists (v, r). split; [reflexivity|]. apply filter_In. split; [exact H|apply String.eqb_refl].
Qed.
Lemma numbers_NoDup seen r : NoDup (map fst seen) -> NoDup (numbers seen r).
Proof.
  unfold numbers. induction seen as [|[v r'] seen IH]; intros N; cbn; [constructor|]. inversion N as [|? ? N1 N2]; subst.
  destruct (String.eqb r' r); [|apply IH, N2]. cbn. constructor; [|apply IH, N2].
  intros I. apply N1. apply in_map_iff in I. destruct I as ([v2 r2] & E & I). apply filter_In in I.
  apply in_map_iff. exists (v2, r2). split; [exact E|apply I].
Qed.
Lemma fst_fun {B} (seen : list (nat * B)) v r r' : NoDup (map fst seen) -> In (v, r) seen -> In (v, r') seen -> r = r'.
Proof.
  induction seen as [|[w q] seen IH]; intros N I I'; [contradiction|]. inversion N as [|? ? N1 N2]; subst.
  destruct I as [I|I], I' as [I'|I'].
  - congruence.
  - injection I as -> ->. elim N1. apply in_map_iff. exists (v, r'). auto.
  - injection I' as -> ->. elim N1. apply in_map_iff. exists (v, r). auto.
  - eapply IH; eassumption.
Qed.

Definition assignments (keys : list string) (seen : list (nat * string)) : list (nat * string) :=
  flat_map (fun r => name_assignments r (numbers seen r)) keys.

Lemma assignments_In keys seen v : In v (map fst (assignments keys seen)) <-> exists r, In r keys /\ In (v, r) seen.
Proof.
  unfold assignments. induction keys as [|k keys IH]; cbn; [split; [contradiction|intros (r & [] & _)]|].
  rewrite map_app, in_app_iff, IH. clear IH.
  assert (E : In v (map fst (name_assignments k (numbers seen k))) <-> In (v, k) seen).
  { rewrite <- numbers_In. split; apply Permutation_in; [|symmetry]; apply assignments_fst. }
  rewrite E. split.
  - intros [H|(r & H & H')]; [exists k; auto|exists r; auto].
  - intros (r & [->|H] & H'); [left; exact H'|right; exists r; auto].
Qed.

Lemma NoDup_app {A} (l l' : list A) : NoDup l -> NoDup l' -> (forall x, In x l -> ~ In x l') -> NoDup (l ++ l').
Proof.
  induction l as [|x l IH]; intros N N' D; cbn; [exact N'|]. inversion N; subst. constructor.
  - rewrite in_app_iff. intros [H|H]; [contradiction|]. exact (D x (or_introl eq_refl) H).
  - apply IH; auto. intros y Y. apply D. right; exact Y.
Qed.

Lemma assignments_NoDup keys seen : NoDup keys -> NoDup (map fst seen) -> NoDup (map fst (assignments keys seen)).
Proof.
  intros K N. induction keys as [|k keys IH]; cbn; [constructor|]. inversion K as [|? ? K1 K2]; subst.
  rewrite map_app. apply NoDup_app.
  - eapply Permutation_NoDup; [symmetry; apply assignments_fst|apply numbers_NoDup, N].
  - apply IH, K2.
  - intros v V V'. apply (Permutation_in _ (assignments_fst _ _)) in V. apply numbers_In in V.
    apply assignments_In in V'. destruct V' as (r & R & V'). rewrite (fst_fun _ _ _ _ N V V') in K1. contradiction.
Qed.

Lemma var_names_perm keys keys' seen : Permutation keys keys' -> NoDup keys -> NoDup (map fst seen) ->
  var_names keys seen = var_names keys' seen.
Proof.
  intros P K N. unfold var_names. apply assign_perm; [|apply assignments_NoDup; assumption].
  apply Permutation_flat_map, P.
Qed.

Lemma var_runes_NoDup U h fuel : forall l seen seen', NoDup (map fst seen) -> var_runes U h fuel l seen = Ok seen' -> NoDup (map fst seen').
Proof.
  induction l as [|r l IH]; intros seen seen' N E; cbn in E; [congruence|].
  destruct (nth_error h r) as [[]|]; try (eapply IH; eassumption).
  destruct (existsb _ seen) eqn:X; [eapply IH; eassumption|].
  destruct (var_rune U h fuel def) as [x| |]; cbn in E; try discriminate. eapply IH; [|exact E].
  rewrite map_app. cbn. apply NoDup_app; [exact N|repeat constructor; auto|]. intros v V [<-|[]].
  apply in_map_iff in V. destruct V as ([w y] & <- & V).
  assert (existsb (fun p => fst p =? w) seen = true) by (apply existsb_exists; exists (w, y); split; [exact V|apply Nat.eqb_refl]).
  cbn in X. congruence.
Qed.

Theorem print_order_irrelevant U keys : (forall ks, Permutation ks (keys ks)) ->
  forall pretty fuel t, print U keys pretty fuel t = print U (fun ks => ks) pretty fuel t.
Proof.
  intros P pretty fuel [[r h]|]; [|reflexivity]. unfold print. destruct (visited h fuel r) as [l| |]; cbn; try reflexivity.
  destruct (var_runes U h fuel l []) as [seen| |] eqn:E; cbn; try reflexivity. destruct (_ && _); [reflexivity|].
  rewrite <- (var_names_perm (nodup string_dec (map snd seen))); [reflexivity|apply P|apply NoDup_nodup|].
  eapply var_runes_NoDup; [|exact E]. constructor.
Qed.
