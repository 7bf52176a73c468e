(** Different numbers get different names. *)

From Coq Require Import String Ascii NArith List Bool Arith Lia Permutation DecimalString DecimalNat.
From Verif Require Import Base Utf8 Utf8Facts Tone ToneSpec ToneFacts Ast AstSorts Logic LogicWords LogicSpec Interp Simplify LogicString LogicFuel OrderFacts NameFacts.
Import ListNotations.
Open Scope string_scope.
Open Scope list_scope.
Open Scope nat_scope.

Lemma itoa_inj i j : itoa i = itoa j -> i = j.
Proof.
  unfold itoa. intros H. apply Unsigned.to_uint_inj.
  assert (E := f_equal NilEmpty.uint_of_string H). rewrite !NilEmpty.usu in E. congruence.
Qed.
Lemma itoa_nonempty i : itoa i <> "".
Proof.
  unfold itoa. intros H. assert (E := f_equal NilEmpty.uint_of_string H). rewrite NilEmpty.usu in E. cbn in E.
  injection E as E. assert (X := Unsigned.of_to i). rewrite E in X. cbn in X. subst i. discriminate E.
Qed.
Lemma digits_ascii u : all_ascii (NilEmpty.string_of_uint u).
Proof. induction u; cbn; [constructor|..]; (constructor; [reflexivity|exact IHu]). Qed.
Lemma itoa_ascii i : all_ascii (itoa i).
Proof. apply digits_ascii. Qed.

(** A single letter from A to X. *)
Definition cap (r : string) : Prop := exists c, r = String c "" /\ (65 <= byte_of c <= 88)%N.

(** The key a name belongs to. *)
Definition key_of (s : string) : string :=
  match s with
  | EmptyString => ""
  | String c _ => if (byte_of c =? 89)%N || (byte_of c =? 90)%N then "X" else String c ""
  end.

Lemma cap_key r t : cap r -> key_of (r ++ t) = r.
Proof.
  intros (c & -> & L). cbn. destruct (N.eqb_spec (byte_of c) 89); [lia|]. destruct (N.eqb_spec (byte_of c) 90); [lia|]. reflexivity.
Qed.
Lemma indexed_In r : forall vs i v s, In (v, s) (indexed r i vs) -> exists k, k < length vs /\ nth_error vs k = Some v /\ s = (r ++ itoa (i + k))%string.
Proof.
  induction vs as [|w vs IH]; intros i v s H; [contradiction|]. destruct H as [H|H].
  - injection H as <- <-. exists 0. cbn. rewrite Nat.add_0_r. repeat split; auto. lia.
  - destruct (IH _ _ _ H) as (k & L & E & ->). exists (S k). cbn. rewrite <- plus_n_Sm. repeat split; auto. lia.
Qed.

(** What the names of one key look like. *)
Inductive named (r : string) (vs : list nat) (v : nat) (s : string) : Prop :=
  | NIndexed k : nth_error vs k = Some v -> s = (r ++ itoa k)%string -> named r vs v s
  | NSingle : vs = [v] -> s = r -> named r vs v s
  | NLetter k : r = "X" -> nth_error vs k = Some v -> nth_error ["X"; "Y"; "Z"] k = Some s -> named r vs v s.

Lemma assignments_named r vs v s : In (v, s) (name_assignments r vs) -> named r vs v s.
Proof.
  assert (I : forall vs, In (v, s) (indexed r 0 vs) -> named r vs v s).
  { intros q H. apply indexed_In in H. destruct H as (k & _ & E & ->). eapply NIndexed; eauto. }
  unfold name_assignments. destruct (String.eqb_spec r "X") as [->|].
  - destruct vs as [|a [|b [|c [|d vs]]]]; try apply I.
    + intros [H|[]]. injection H as <- <-. apply NSingle; reflexivity.
    + intros [H|[H|[]]]; injection H as <- <-; [apply (NLetter _ _ _ _ 1)|apply (NLetter _ _ _ _ 0)]; reflexivity.
    + intros [H|[H|[H|[]]]]; injection H as <- <-; [apply (NLetter _ _ _ _ 2)|apply (NLetter _ _ _ _ 1)|apply (NLetter _ _ _ _ 0)]; reflexivity.
  - destruct vs as [|a [|b vs]]; try apply I. intros [H|[]]. injection H as <- <-. apply NSingle; reflexivity.
Qed.

Lemma sapp_inv_head (a b c : string) : (a ++ b = a ++ c)%string -> b = c.
Proof. induction a; cbn; intros H; [exact H|injection H as H; auto]. Qed.

Lemma named_key r vs v s : cap r -> named r vs v s -> key_of s = r.
Proof.
  intros C [k _ S|_ S|k R _ E]; [subst s|subst s|subst r].
  - apply cap_key, C.
  - rewrite <- (sapp_nil_r r) at 1. apply cap_key, C.
  - destruct k as [|[|[|k]]]; cbn in E; try (injection E as <-; reflexivity). destruct k; discriminate.
Qed.
Lemma named_inj r vs v v' s : NoDup vs -> cap r -> named r vs v s -> named r vs v' s -> v = v'.
Proof.
  intros N (c & Er & _) H H'.
  assert (X : forall k k', nth_error vs k = Some v -> nth_error vs k' = Some v' -> k = k' -> v = v') by (intros; congruence).
  assert (L : forall k t, nth_error ["X"; "Y"; "Z"] k = Some t -> String.length t = 1).
  { intros k t E. destruct k as [|[|[|k]]]; cbn in E; try (injection E as <-; reflexivity). destruct k; discriminate. }
  assert (L' : forall k, String.length (r ++ itoa k) <> 1).
  { intros k E. rewrite Er in E. cbn in E. apply (itoa_nonempty k). destruct (itoa k); [reflexivity|discriminate]. }
  destruct H as [k E S|S1 S|k R E S], H' as [k' E' S'|S1' S'|k' R' E' S'].
  - rewrite S in S'. apply sapp_inv_head, itoa_inj in S'. exact (X _ _ E E' S').
  - elim (L' k). rewrite <- S, S', Er. reflexivity.
  - elim (L' k). rewrite <- S. exact (L _ _ S').
  - elim (L' k'). rewrite <- S', S, Er. reflexivity.
  - congruence.
  - rewrite S1 in E'. destruct k' as [|k']; cbn in E'; [congruence|destruct k'; discriminate].
  - elim (L' k'). rewrite <- S'. exact (L _ _ S).
  - rewrite S1' in E. destruct k as [|k]; cbn in E; [congruence|destruct k; discriminate].
  - apply (X _ _ E E'). destruct k as [|[|[|k]]], k' as [|[|[|k']]]; cbn in S, S'; try reflexivity; try congruence;
      try (destruct k; discriminate); try (destruct k'; discriminate).
Qed.

(** ** The table of names *)

Lemma assign_spec : forall l names names', assign_names l names = Ok names' -> NoDup (map fst l) ->
  length names' = length names /\
  (forall v s, In (v, s) l -> nth_error names' v = Some s) /\
  (forall v, ~ In v (map fst l) -> nth_error names' v = nth_error names v).
Proof.
  induction l as [|[v s] l IH]; intros names names' E N; cbn [assign_names] in E.
  - injection E as <-. repeat split; auto. contradiction.
  - destruct (Nat.ltb_spec v (length names)) as [L|]; [|discriminate]. inversion N as [|? ? N1 N2]; subst.
    destruct (IH _ _ E N2) as (Le & I & O). rewrite set_nth_length in Le. split; [exact Le|]. split.
    + intros w t [H|H]; [|apply I, H]. injection H as <- <-. rewrite O by exact N1. apply set_nth_same, L.
    + intros w W. cbn in W. rewrite O by tauto. apply set_nth_other. tauto.
Qed.

(** The numbers seen are 0 .. k-1. *)
Lemma max_le (seen : list (nat * string)) v r : In (v, r) seen -> v <= max_number seen.
Proof.
  unfold max_number. assert (G : forall l m, m <= fold_left (fun m (p : nat * string) => Nat.max m (fst p)) l m /\
    forall v r, In (v, r) l -> v <= fold_left (fun m (p : nat * string) => Nat.max m (fst p)) l m).
  { induction l as [|[w t] l IH]; intros m; cbn; [split; [lia|contradiction]|].
    destruct (IH (Nat.max m w)) as [A B]. split; [lia|]. intros u q [H|H]; [injection H as <- <-; lia|exact (B u q H)]. }
  apply G.
Qed.
Lemma seen_all (seen : list (nat * string)) : NoDup (map fst seen) -> max_number seen < length seen ->
  forall v, v < length seen <-> In v (map fst seen).
Proof.
  intros N M. assert (B : forall v, In v (map fst seen) -> v < length seen).
  { intros v H. apply in_map_iff in H. destruct H as ([w r] & <- & H). apply max_le in H. cbn. lia. }
  intros v. split; [|apply B]. intros L.
  assert (I : incl (seq 0 (length seen)) (map fst seen)).
  { apply NoDup_length_incl; [exact N|rewrite map_length, seq_length; lia|]. intros w W. apply in_seq. specialize (B w W). lia. }
  apply I, in_seq. lia.
Qed.

Lemma var_rune_cap U h fuel def r : plain_upper U -> toaq_names h -> var_rune U h fuel def = Ok r -> cap r.
Proof.
  intros PU TN E. assert (CU : cap "U") by (exists "U"%char; split; [reflexivity|vm_compute; split; discriminate]).
  assert (CX : cap "X") by (exists "X"%char; split; [reflexivity|vm_compute; split; discriminate]).
  unfold var_rune in E. destruct def as [d|]; [|injection E as <-; exact CU].
  destruct (nth_error h d) as [[]|]; try discriminate.
  destruct (left_predication h fuel restriction) as [[p|]| |]; cbn in E; try discriminate; [|injection E as <-; exact CX].
  destruct (left_pred h fuel p) as [[name|]| |] eqn:LP; cbn in E; try discriminate; [|injection E as <-; exact CX].
  assert (In (CPred name) h).
  { clear - LP. revert p LP. induction fuel as [|f IH]; intros p LP; cbn in LP; [discriminate|].
    destruct (nth_error h p) as [[]|] eqn:Hp; try discriminate.
    - injection LP as ->. eapply nth_error_In, Hp.
    - destruct (left_pred h f l) as [[nm|]| |] eqn:L1; cbn in LP; try discriminate.
      destruct (String.eqb nm "shi"); [eapply IH, LP|]. injection LP as ->. eapply IH, L1. }
  destruct (is_bin_op name) eqn:B; [injection E as <-; exact CX|].
  destruct (TN name H) as [->|[->|(c & rest & -> & L)]]; [vm_compute in B; discriminate|vm_compute in B; discriminate|].
  assert (D : decode_rune (String c rest) = (byte_of c, 1)).
  { cbn [decode_rune]. destruct (N.ltb_spec (byte_of c) 128); [reflexivity|lia]. }
  rewrite D in E. cbn [snd stake] in E. injection E as <-.
  assert (D' : runes (String c "") = [byte_of c]).
  { rewrite runes_cons by discriminate. assert (D' : decode_rune (String c "") = (byte_of c, 1)).
    { cbn [decode_rune]. destruct (N.ltb_spec (byte_of c) 128); [reflexivity|lia]. }
    rewrite D'. reflexivity. }
  unfold to_upper. rewrite D'. cbn [map of_runes]. rewrite PU by lia. rewrite encode_ascii by lia.
  exists (byte (byte_of c - 32)). split; [reflexivity|]. rewrite byte_of_byte by lia. lia.
Qed.
Lemma var_runes_cap U h fuel : plain_upper U -> toaq_names h -> forall l seen seen',
  (forall v r, In (v, r) seen -> cap r) -> var_runes U h fuel l seen = Ok seen' -> forall v r, In (v, r) seen' -> cap r.
Proof.
  intros PU TN. induction l as [|x l IH]; intros seen seen' C E; cbn in E; [injection E as <-; exact C|].
  destruct (nth_error h x) as [[]|]; try (eapply IH; eassumption).
  destruct (existsb _ seen); [eapply IH; eassumption|].
  destruct (var_rune U h fuel def) as [y| |] eqn:V; cbn in E; try discriminate. eapply IH; [|exact E].
  intros v r H. apply in_app_iff in H. destruct H as [H|[H|[]]]; [eapply C, H|]. injection H as <- <-.
  eapply var_rune_cap; eassumption.
Qed.

(** The name of a number. *)
Definition name_of (names : list string) (v : nat) : string :=
  match nth_error names v with Some s => s | None => ("X" ++ itoa v)%string end.

Lemma name_of_cases keys seen names : NoDup (map fst seen) -> NoDup keys -> (forall v r, In (v, r) seen -> In r keys) ->
  max_number seen < length seen -> var_names keys seen = Ok names ->
  forall v, (exists r, In (v, r) seen /\ named r (numbers seen r) v (name_of names v)) \/
            (length seen <= v /\ name_of names v = ("X" ++ itoa v)%string).
Proof.
  intros N K A M E v. assert (ND := assignments_NoDup keys seen K N).
  destruct (assign_spec _ _ _ E ND) as (L & I & O). rewrite repeat_length in L.
  destruct (Nat.lt_ge_cases v (length seen)) as [V|V].
  - left. apply (seen_all _ N M) in V. apply in_map_iff in V. destruct V as ([w r] & <- & V). exists r. split; [exact V|].
    assert (W : In w (map fst (assignments keys seen))) by (apply assignments_In; exists r; split; [exact (A _ _ V)|exact V]).
    apply in_map_iff in W. destruct W as ([w' s] & W1 & W2). cbn in W1. subst w'.
    unfold name_of. cbn [fst]. rewrite (I _ _ W2). apply in_flat_map in W2. destruct W2 as (r' & R' & W2).
    assert (r' = r).
    { assert (In w (numbers seen r')).
      { eapply Permutation_in; [apply (assignments_fst r')|]. apply in_map_iff. exists (w, s). split; [reflexivity|exact W2]. }
      apply numbers_In in H. exact (fst_fun _ _ _ _ N H V). }
    subst r'. apply assignments_named, W2.
  - right. split; [exact V|]. unfold name_of. destruct (nth_error names v) eqn:X; [|reflexivity].
    assert (v < length names) by (apply nth_error_Some; congruence). lia.
Qed.

Lemma cap_X : cap "X".
Proof. exists "X"%char. split; [reflexivity|vm_compute; split; discriminate]. Qed.

Lemma name_of_inj keys seen names : NoDup (map fst seen) -> NoDup keys -> (forall v r, In (v, r) seen -> In r keys) ->
  (forall v r, In (v, r) seen -> cap r) ->
  max_number seen < length seen -> var_names keys seen = Ok names ->
  forall v v', name_of names v = name_of names v' -> v = v'.
Proof.
  intros N K A C M E.
  assert (G := name_of_cases keys seen names N K A M E).
  (* a number seen and one not seen *)
  assert (D : forall v v' r, In (v, r) seen -> named r (numbers seen r) v (name_of names v) -> length seen <= v' ->
             name_of names v = ("X" ++ itoa v')%string -> False).
  { intros v v' r I H L X. rewrite X in H. assert (R : r = "X").
    { rewrite <- (named_key _ _ _ _ (C _ _ I) H). apply cap_key, cap_X. }
    subst r. destruct H as [k Ek S|S1 S|k _ Ek S].
    - apply sapp_inv_head, itoa_inj in S. subst k. assert (B : v' < length (numbers seen "X")) by (apply nth_error_Some; congruence).
      assert (length (numbers seen "X") <= length seen); [|lia]. unfold numbers. rewrite map_length. clear. induction seen as [|p q IH]; cbn; [lia|].
      destruct (String.eqb (snd p) "X"); cbn; lia.
    - apply (itoa_nonempty v'). change ("X" ++ itoa v' = "X" ++ "")%string in S. exact (sapp_inv_head _ _ _ S).
    - apply (itoa_nonempty v'). cbn in S. destruct k as [|[|[|k]]]; cbn in S; try discriminate; [congruence|destruct k; discriminate]. }
  intros v v' X. destruct (G v) as [(r & I & H)|(L & H)], (G v') as [(r' & I' & H')|(L' & H')].
  - rewrite <- X in H'. assert (R : r = r') by (rewrite <- (named_key _ _ _ _ (C _ _ I) H); exact (named_key _ _ _ _ (C _ _ I') H')).
    subst r'. exact (named_inj _ _ _ _ _ (numbers_NoDup _ r N) (C _ _ I) H H').
  - exfalso. rewrite H' in X. exact (D v v' r I H L' X).
  - exfalso. rewrite H in X. symmetry in X. exact (D v' v r' I' H' L X).
  - rewrite H, H' in X. apply sapp_inv_head, itoa_inj in X. exact X.
Qed.

(** All names are ASCII, so that making them italic keeps them apart. *)
Lemma name_of_ascii keys seen names : NoDup (map fst seen) -> NoDup keys -> (forall v r, In (v, r) seen -> In r keys) ->
  (forall v r, In (v, r) seen -> cap r) ->
  max_number seen < length seen -> var_names keys seen = Ok names -> forall v, all_ascii (name_of names v).
Proof.
  intros N K A C M E v.
  assert (AX : forall r k, cap r -> all_ascii (r ++ itoa k)).
  { intros r k (c & -> & L). cbn. constructor; [lia|apply itoa_ascii]. }
  destruct (name_of_cases keys seen names N K A M E v) as [(r & I & H)|(L & ->)]; [|apply (AX "X"), cap_X].
  destruct H as [k _ -> |_ -> |k _ _ S].
  - apply AX, (C _ _ I).
  - destruct (C _ _ I) as (c & -> & L). constructor; [lia|constructor].
  - destruct k as [|[|[|k]]]; cbn in S; try (injection S as <-; repeat constructor). destruct k; discriminate.
Qed.

Definition italic_rune (r : N) : N := if in_range 65 90 r then (r - 65 + 0x1D434)%N else r.
Lemma italic_inj s s' : all_ascii s -> all_ascii s' -> math_italic s = math_italic s' -> s = s'.
Proof.
  intros A A' E. unfold math_italic in E. fold italic_rune in E. apply (f_equal runes) in E. rewrite !runes_of_runes in E.
  destruct (runes_ascii s A) as [Es Fs]. destruct (runes_ascii s' A') as [Es' Fs']. rewrite Es, Es'. f_equal.
  revert E Fs Fs'. generalize (runes s) (runes s'). clear. induction l as [|r l IH]; intros [|r' l'] E F F'; try discriminate; [reflexivity|].
  cbn [map] in E. injection E as E1 E2. inversion F; subst. inversion F'; subst. f_equal; [|apply IH; assumption].
  rewrite !map_map in *. 
  assert (V : forall x, (x < 128)%N -> clean (italic_rune x) = italic_rune x).
  { intros x X. apply clean_valid, valid_rune_spec. unfold italic_rune. destruct (in_range 65 90 x) eqn:R; [|lia].
    apply in_range_spec in R. lia. }
  unfold italic_rune in V. unfold italic_rune in E1. rewrite !V in E1 by assumption.
  destruct (in_range 65 90 r) eqn:R, (in_range 65 90 r') eqn:R'; rewrite ?in_range_spec, ?in_range_false in *; lia.
Qed.

Theorem print_names U keys pretty fuel r h s : (forall ks, Permutation ks (keys ks)) ->
  plain_upper U -> toaq_names h -> print U keys pretty fuel (Some (r, h)) = Ok s ->
  exists names body,
    show pretty names h fuel r = Ok body /\
    (forall v v', show_var pretty names v = show_var pretty names v' -> v = v') /\
    match names with Some _ => s = (body ++ ".")%string | None => s = body end.
Proof.
  intros P PU TN E. rewrite print_order_irrelevant in E by exact P. unfold print in E.
  destruct (visited h fuel r) as [l| |]; cbn [bind] in E; try discriminate.
  destruct (var_runes U h fuel l []) as [seen| |] eqn:V; cbn [bind] in E; try discriminate.
  assert (N : NoDup (map fst seen)) by (eapply var_runes_NoDup; [|exact V]; constructor).
  destruct (negb _ && _) eqn:B.
  - exists None, s. split; [exact E|]. split; [|reflexivity]. intros v v' H. unfold show_var in H.
    assert (A : forall k, all_ascii ("X" ++ itoa k)) by (intros k; constructor; [reflexivity|apply itoa_ascii]).
    assert (H' : ("X" ++ itoa v)%string = ("X" ++ itoa v')%string).
    { destruct pretty; [|exact H]. apply italic_inj; auto. }
    apply sapp_inv_head, itoa_inj in H'. exact H'.
  - destruct (var_names _ seen) as [names| |] eqn:VN; cbn [bind] in E; try discriminate.
    destruct (show pretty (Some names) h fuel r) as [body| |] eqn:Sh; cbn [bind] in E; try discriminate. injection E as <-.
    exists (Some names), body. split; [exact Sh|]. split; [|reflexivity].
    assert (M : seen = [] \/ max_number seen < length seen).
    { apply andb_false_iff in B. destruct B as [B|B]; [left; destruct seen; [reflexivity|discriminate]|].
      right. apply Nat.leb_gt in B. exact B. }
    destruct M as [-> |M].
    { (* no variable: every name is X and the number *)
      cbn in VN. injection VN as <-. intros v v' H. unfold show_var in H.
      assert (A : forall k, all_ascii ("X" ++ itoa k)) by (intros k; constructor; [reflexivity|apply itoa_ascii]).
      assert (H' : ("X" ++ itoa v)%string = ("X" ++ itoa v')%string).
      { destruct v, v'; cbn [nth_error] in H; (destruct pretty; [apply italic_inj; auto|exact H]). }
      apply sapp_inv_head, itoa_inj in H'. exact H'. }
    assert (K : NoDup (nodup string_dec (map snd seen))) by apply NoDup_nodup.
    assert (A : forall v r0, In (v, r0) seen -> In r0 (nodup string_dec (map snd seen))).
    { intros v r0 H. apply nodup_In, in_map_iff. exists (v, r0). auto. }
    assert (C : forall v r0, In (v, r0) seen -> cap r0) by (eapply var_runes_cap; [exact PU|exact TN| |exact V]; contradiction).
    intros v v' H. unfold show_var in H. fold (name_of names v) (name_of names v') in H.
    eapply name_of_inj; try eassumption. destruct pretty; [|exact H].
    apply italic_inj; [eapply name_of_ascii; eassumption|eapply name_of_ascii; eassumption|exact H].
Qed.
