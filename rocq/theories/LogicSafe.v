(** Interpret of what it supports never panics, nor does String of a tree that Interpret
    returns. *)

From Coq Require Import String NArith List Bool Arith Lia.
From Verif Require Import Base PegSyntax Tone Ast AstSorts Parser SortApi Logic LogicWords LogicSpec Interp Simplify LogicString OrderFacts
  SafeBase InterpSafe SimplifySafe AstCases LogicApi LogicCases.
Import ListNotations.
Open Scope string_scope.
Open Scope list_scope.
Open Scope nat_scope.

(** ** String *)

Definition calm {A} (r : res A) : Prop := match r with Panic _ => False | _ => True end.
Lemma calm_bind {A B} (r : res A) (f : A -> res B) : calm r -> (forall a, r = Ok a -> calm (f a)) -> calm (bind r f).
Proof. destruct r; cbn; auto. Qed.

Lemma left_predication_calm h : forall fuel o, calm (left_predication h fuel o).
Proof.
  induction fuel as [|f IH]; intros [r|]; cbn [left_predication]; try exact Logic.I.
  destruct (nth_error h r) as [[]|]; try exact Logic.I. apply IH.
Qed.
Lemma left_pred_calm h : forall fuel p, calm (left_pred h fuel p).
Proof.
  induction fuel as [|f IH]; intros p; cbn [left_pred]; try exact Logic.I.
  destruct (nth_error h p) as [[]|]; try exact Logic.I. apply calm_bind; [apply IH|]. intros [name|] _; [|exact Logic.I].
  destruct (String.eqb name "shi"); [apply IH|exact Logic.I].
Qed.
Lemma var_runes_calm U h fuel : good_heap h -> forall l seen, calm (var_runes U h fuel l seen).
Proof.
  intros G. induction l as [|r l IH]; intros seen; cbn [var_runes]; [exact Logic.I|].
  destruct (nth_error h r) as [[]|] eqn:E; try apply IH. destruct (existsb _ seen); [apply IH|].
  apply calm_bind; [|intros; apply IH]. assert (Gc := G _ _ E). cbn [good] in Gc. destruct def as [d|]; cbn [var_rune]; [|exact Logic.I].
  destruct (Gc d eq_refl) as (c & Ec & Tc). rewrite Ec. destruct c; try discriminate Tc.
  apply calm_bind; [apply left_predication_calm|]. intros [p|] _; [|exact Logic.I].
  apply calm_bind; [apply left_pred_calm|]. intros [name|] _; [|exact Logic.I]. destruct (is_bin_op name); exact Logic.I.
Qed.

Lemma in_indexed r vs : forall i v s, In (v, s) (indexed r i vs) -> In v vs.
Proof.
  induction vs as [|x vs IH]; intros i v s; cbn [indexed]; [contradiction|]. intros [E|E]; [injection E as <- _; left; reflexivity|right; eauto].
Qed.
Lemma in_assignments r vs v s : In (v, s) (name_assignments r vs) -> In v vs.
Proof.
  assert (X := in_indexed r vs 0 v s). unfold name_assignments.
  destruct (String.eqb r "X"), vs as [|v0 [|v1 [|v2 [|v3 vs]]]]; try exact X; cbn [In];
    intros H; repeat match goal with E : _ \/ _ |- _ => destruct E as [E|E] end; try contradiction; injection H as <- _; auto.
Qed.
Lemma assign_calm l : forall names, (forall v s, In (v, s) l -> v < length names) -> calm (assign_names l names).
Proof.
  induction l as [|[v s] l IH]; intros names H; cbn [assign_names]; [exact Logic.I|].
  rewrite (proj2 (Nat.ltb_lt _ _)) by (eapply H; left; reflexivity). apply IH. intros w t I. rewrite set_nth_length. eapply H. right. exact I.
Qed.
Lemma fold_max (l : list (nat * string)) : forall m, m <= fold_left (fun m p => Nat.max m (fst p)) l m /\
  forall p, In p l -> fst p <= fold_left (fun m p => Nat.max m (fst p)) l m.
Proof.
  induction l as [|x l IH]; intros m; cbn [fold_left In]; [split; [auto|contradiction]|]. destruct (IH (Nat.max m (fst x))) as [A B].
  split; [lia|]. intros p [->|I]; [lia|auto].
Qed.

Section Show.
Variables (pretty : bool) (names : option (list string)) (h : heap).
Hypothesis G : good_heap h.

Lemma show_args_calm (f : ref -> res string) l : (forall x, In (Some x) l -> calm (f x)) -> calm (show_args f l).
Proof.
  induction l as [|[x|] l IH]; intros H; cbn [show_args]; [exact Logic.I| |].
  - apply calm_bind; [apply H; left; reflexivity|]. intros s _. apply calm_bind; [|intros; exact Logic.I]. apply IH. intros y I. apply H. right. exact I.
  - apply calm_bind; [exact Logic.I|]. intros s _. apply calm_bind; [|intros; exact Logic.I]. apply IH. intros y I. apply H. right. exact I.
Qed.
Lemma show_opt_calm (f : ref -> res string) o : (forall x, o = Some x -> calm (f x)) -> calm (show_opt f o).
Proof. destruct o; cbn; auto. Qed.

Lemma show_calm : forall fuel t r, is h t r -> calm (show pretty names h fuel r).
Proof.
  induction fuel as [|f IH]; intros t r (c & E & _); cbn [show]; [exact Logic.I|]. rewrite E. assert (Gc := G _ _ E).
  destruct c as [q n fo rs sc|c x y|p a|n d fo|a|tx full|name|x|x y|p pos]; cbn [good] in Gc.
  - destruct Gc as [G1 G2]. assert (S : calm (show_opt (show pretty names h f) sc)) by (apply show_opt_calm; intros z Z; eapply IH, G2, Z).
    destruct rs as [x|].
    + apply calm_bind; [eapply IH, G1; reflexivity|]. intros. apply calm_bind; [exact S|]. intros; exact Logic.I.
    + apply calm_bind; [exact S|]. intros; exact Logic.I.
  - destruct Gc as [G1 G2]. destruct G1 as (cx & Ex & Tx) eqn:Q1. destruct G2 as (cy & Ey & Ty) eqn:Q2. rewrite Ex, Ey.
    apply calm_bind; [eapply IH; eexists; split; eassumption|]. intros. apply calm_bind; [eapply IH; eexists; split; eassumption|]. intros; exact Logic.I.
  - destruct Gc as [G1 G2].
    assert (A : calm (show_args (show pretty names h f) a)) by (apply show_args_calm; intros z Z; eapply IH, G2, Z).
    assert (P : calm (show pretty names h f p)) by (eapply IH, G1).
    assert (O : forall z, In z a -> calm (show_opt (show pretty names h f) z)) by (intros z Z; apply show_opt_calm; intros y ->; eapply IH, G2, Z).
    assert (W : calm (bind (show pretty names h f p) (fun n => bind (show_args (show pretty names h f) a) (fun s => Ok (n ++ "(" ++ s ++ ")")%string)))).
    { apply calm_bind; [exact P|]. intros. apply calm_bind; [exact A|]. intros; exact Logic.I. }
    destruct (nth_error h p) as [[]|]; try exact W. destruct a as [|x [|y [|z a]]]; try exact W. destruct (is_bin_op name).
    + apply calm_bind; [apply O; left; reflexivity|]. intros. apply calm_bind; [apply O; right; left; reflexivity|]. intros; exact Logic.I.
    + apply calm_bind; [exact A|]. intros; exact Logic.I.
  - exact Logic.I.
  - apply calm_bind; [|intros; exact Logic.I]. apply show_args_calm. intros z Z. eapply IH, Gc, Z.
  - exact Logic.I.
  - exact Logic.I.
  - apply calm_bind; [|intros; exact Logic.I]. eapply IH, Gc.
  - destruct Gc as [G1 G2]. apply calm_bind; [eapply IH, G1|]. intros. apply calm_bind; [eapply IH, G2|]. intros; exact Logic.I.
  - apply calm_bind; [|intros; exact Logic.I]. eapply IH, Gc.
Qed.
End Show.

Lemma print_calm U keys pretty fuel r h : good_heap h -> is h TStmt r -> calm (print U keys pretty fuel (Some (r, h))).
Proof.
  intros G R. assert (R' := R). destruct R' as (c & E & _). unfold print. apply calm_bind.
  { assert (V := visited_safe _ G fuel _ _ E). destruct (visited h fuel r); [exact Logic.I|contradiction|exact Logic.I]. }
  intros l _. apply calm_bind; [apply var_runes_calm, G|]. intros seen _.
  destruct (negb _ && _) eqn:B; [eapply show_calm, R; exact G|].
  apply calm_bind; [|intros names _; apply calm_bind; [eapply show_calm, R; exact G|intros; exact Logic.I]].
  apply assign_calm. intros v s I. rewrite repeat_length. apply in_flat_map in I. destruct I as (k & _ & I). apply in_assignments in I.
  apply in_map_iff in I. destruct I as (p & <- & I). apply filter_In in I. destruct I as [I _].
  destruct seen as [|p0 seen]; [contradiction|]. cbn [negb andb] in B. apply Nat.leb_gt in B.
  assert (M := proj2 (fold_max (p0 :: seen) 0) p I). unfold max_number in B. lia.
Qed.

(** ** Interpret *)

Lemma supported_outcome U d : (forall n, In n d -> item_ok U n) -> forall r, outcome U d r ->
  match r with Ok None => True | Ok (Some (r, h)) => good_heap h /\ is h TStmt r | _ => False end.
Proof.
  intros H r [N [f F]]. assert (S := interpret_safe U (o_letters diacritic) f d H). rewrite (F f (le_n f)) in S.
  destruct r as [[[x h]|]| |]; auto.
Qed.

(** The items of a parsed text. *)
Lemma parsed_items is_punct text p lead d : reach is_punct text p ->
  fst (text_of is_punct p) = Ok (Got (Some (NText lead d))) -> forall n, In n d -> among items n = true.
Proof.
  intros R E n I. destruct (text_sorted _ _ _ _ R E) as [_ S]. cbn in S. apply andb_true_iff in S. destruct S as [_ S].
  rewrite forallb_forall in S. apply S in I. apply andb_true_iff in I. apply I.
Qed.

Section Text.
Variables (is_punct : N -> bool) (text : string) (p : parser) (lead : option node) (d : list node) (U : unicode).
Hypothesis R : reach is_punct text p.
Hypothesis E : fst (text_of is_punct p) = Ok (Got (Some (NText lead d))).
Hypothesis S : forall n, In n d -> is_sentence n = true -> well_sorted n = true /\ supported U n = true.
Lemma text_items : forall n, In n d -> item_ok U n.
Proof. intros n I. split; [exact (parsed_items _ _ _ _ _ R E n I)|auto]. Qed.
Lemma text_no_panic q : ~ outcome U d (Panic q).
Proof. intros O. exact (supported_outcome U d text_items _ O). Qed.
Lemma text_print_no_panic t : outcome U d (Ok t) -> forall keys pretty fuel q, print U keys pretty fuel t <> Panic q.
Proof.
  intros O keys pretty fuel q. assert (X := supported_outcome U d text_items _ O). destruct t as [[r h]|]; [|discriminate].
  destruct X as [G T]. assert (C := print_calm U keys pretty fuel r h G T). destruct (print _ _ _ _ _); try discriminate. contradiction.
Qed.
End Text.

Definition sentence_ok (U : unicode) (n : node) : bool := negb (is_sentence n) || (well_sorted n && supported U n).
Lemma sentences_ok U d : forallb (sentence_ok U) d = true ->
  forall n, In n d -> is_sentence n = true -> well_sorted n = true /\ supported U n = true.
Proof.
  intros H n I S. rewrite forallb_forall in H. apply H in I. unfold sentence_ok in I. rewrite S in I. cbn in I.
  apply andb_true_iff, I.
Qed.
Definition text_ok (text : string) : bool :=
  match discourse_of text with Some d => existsb is_sentence d && forallb (sentence_ok ascii_unicode) d | None => false end.
Lemma text_ok_case text : text_ok text = true -> exists lead d,
  fst (text_of ascii_punct (new_parser text)) = Ok (Got (Some (NText lead d))) /\ has_sentence d /\
  forall n, In n d -> is_sentence n = true -> well_sorted n = true /\ supported ascii_unicode n = true.
Proof.
  unfold text_ok, discourse_of. destruct (parsed text) as [n|] eqn:P; [|discriminate].
  destruct n as [lead d| | | | | | | | | | | | | | | | | | | | | | | | | |]; try discriminate. intros H.
  apply andb_true_iff in H. destruct H as [H1 H2]. exists lead, d. split; [apply parsed_ok, P|]. split; [|apply sentences_ok, H2].
  apply existsb_exists in H1. destruct H1 as (n & I & S). exists n. split; [exact I|]. 
  destruct n as [ | |je st da| | | | | | | | | | | | | | | | | | | | | |k f t w l r| | ]; try discriminate S.
  - left. eauto.
  - destruct k; try discriminate S. right. eauto 6.
Qed.
Definition supported_text : string :=
  "to ru tu poq/ giV suq/ ji/ to suq/ suq/ bi hao? go po/ sa poq/ na ra fa? ji/ roi suq/ ne\ hao/ da mai? ji/ suq/ je gu? lu? hoa? ji/".
Lemma supported_case : exists lead d,
  fst (text_of ascii_punct (new_parser supported_text)) = Ok (Got (Some (NText lead d))) /\ has_sentence d /\
  forall n, In n d -> is_sentence n = true -> well_sorted n = true /\ supported ascii_unicode n = true.
Proof. apply text_ok_case. vm_compute. reflexivity. Qed.
