(** The report of a syntax error can be read back. *)

From Coq Require Import String Ascii NArith List Bool Arith Lia.
From Verif Require Import Base PegSyntax Peg App Shown ShownRead ShownNums LogicString NameInj PrettyFacts Dedup Report.
Import ListNotations.
Open Scope string_scope.

Definition leaf_text (name want : string) : string :=
  let q := quote_char ++ want ++ quote_char in if String.eqb name "" then q else name ++ "(" ++ q ++ ")".
Definition flat (n : fnode) : bool := match f_kids n with [] => true | [FNode _ _ _ _ []] => true | _ => false end.
Definition head (n : fnode) : string :=
  let 'FNode _ name p want kids := n in
  match kids with
  | [] => leaf_text name want
  | [FNode _ name' _ want' []] => name ++ "[" ++ itoa p ++ "]{" ++ leaf_text name' want' ++ "}"
  | _ => name ++ "[" ++ itoa p ++ "]{"
  end.
Definition elems (tab : string) (kids : list fnode) : string :=
  String.concat "" (map (fun k => newline ++ pretty_fail (tab ++ tab_char) k ++ ",") kids).
Definition tail (tab : string) (n : fnode) : string := if flat n then "" else elems tab (f_kids n) ++ newline ++ tab ++ "}".

Lemma pretty_split tab n : pretty_fail tab n = tab ++ head n ++ tail tab n.
Proof.
  destruct n as [i name p want kids]. destruct kids as [|k kids]; [cbn; unfold leaf_text; now rewrite sapp_nil|].
  destruct k as [i' name' p' want' [|k' kids']].
  - destruct kids as [|k2 kids]; [cbn; unfold leaf_text; rewrite sapp_nil; reflexivity|]. cbn [pretty_fail head tail flat f_kids]. rewrite !sapp_assoc. reflexivity.
  - destruct kids as [|k2 kids]; cbn [pretty_fail head tail flat f_kids]; rewrite !sapp_assoc; reflexivity.
Qed.

Lemma every_app P a b : every_char P (a ++ b) = every_char P a && every_char P b.
Proof. induction a as [|c a IH]; cbn; [reflexivity|]. now rewrite IH, andb_assoc. Qed.
Lemma no_nl s : every_char (fun c => negb (Ascii.eqb c (ascii_of_nat 10))) s = true -> no_char nl s.
Proof.
  unfold no_char. induction s as [|c s IH]; cbn; [auto|]. intros E. apply andb_prop in E as [E F]. intros [->|I]; [now rewrite Ascii.eqb_refl in E|now apply IH].
Qed.
Lemma name_want s : name_ok s = true -> want_ok s = true.
Proof.
  unfold name_ok, want_ok. induction s as [|c s IH]; cbn [every_char]; [auto|]. intros E. apply andb_prop in E as [E F]. rewrite IH by exact F. rewrite andb_true_r.
  unfold delimiter in E. cbn [existsb] in E. rewrite !negb_orb in E. repeat match goal with H : _ && _ = true |- _ => apply andb_prop in H; destruct H end. assumption.
Qed.
Lemma digits_want s : every_char is_digit s = true -> want_ok s = true.
Proof.
  unfold want_ok. induction s as [|c s IH]; cbn [every_char]; [auto|]. intros E. apply andb_prop in E as [E F]. rewrite IH by exact F. rewrite andb_true_r.
  destruct (Ascii.eqb_spec c (ascii_of_nat 10)) as [->|]; [discriminate|reflexivity].
Qed.
Lemma want_app a b : want_ok (a ++ b) = want_ok a && want_ok b.
Proof. apply every_app. Qed.
Lemma leaf_want name want : name_ok name = true -> want_ok want = true -> want_ok (leaf_text name want) = true.
Proof. intros N W. unfold leaf_text. destruct (String.eqb name ""); rewrite !want_app, ?(name_want _ N), W; reflexivity. Qed.
Lemma head_want n : readable n = true -> want_ok (head n) = true.
Proof.
  destruct n as [i name p want kids]. cbn [readable]. intros E. apply andb_prop in E as [E K]. apply andb_prop in E as [N W].
  assert (X : want_ok (name ++ "[" ++ itoa p ++ "]{") = true) by (rewrite !want_app, (name_want _ N), (digits_want _ (itoa_digits p)); reflexivity).
  destruct kids as [|[i' name' p' want' [|]] [|]]; cbn [head]; auto; [now apply leaf_want|].
  cbn [forallb readable] in K. rewrite !andb_true_r in K. apply andb_prop in K as [N' W']. rewrite !want_app, (name_want _ N), (digits_want _ (itoa_digits p)), (leaf_want _ _ N' W'). reflexivity.
Qed.

Lemma cut_name a b r r' : name_ok a = true -> name_ok b = true ->
  match r with String c _ => delimiter c = true | "" => False end -> match r' with String c _ => delimiter c = true | "" => False end -> a ++ r = b ++ r' -> a = b /\ r = r'.
Proof.
  intros A B R R' E. assert (X := span_app (fun c => negb (delimiter c)) a r A). assert (Y := span_app (fun c => negb (delimiter c)) b r' B).
  destruct r as [|c r]; [contradiction|]. destruct r' as [|c' r']; [contradiction|]. cbv beta iota in X, Y. rewrite R in X. rewrite R' in Y.
  specialize (X eq_refl). specialize (Y eq_refl). rewrite E, Y in X. injection X; auto. intros -> -> ->. auto.
Qed.
Lemma cut_digits a b r r' : every_char is_digit a = true -> every_char is_digit b = true ->
  a ++ String "]" r = b ++ String "]" r' -> a = b /\ r = r'.
Proof.
  intros A B E. assert (X := span_app is_digit a (String "]" r) A eq_refl). assert (Y := span_app is_digit b (String "]" r') B eq_refl).
  rewrite E, Y in X. now injection X.
Qed.
Lemma cancel_end c a b : (c = "" \/ c = ",") -> a ++ c = b ++ c -> a = b.
Proof. intros [->| ->]; [now rewrite !sapp_nil|]. apply cancel_r1. Qed.
Lemma leaf_inj name want name' want' : name_ok name = true -> name_ok name' = true -> leaf_text name want = leaf_text name' want' -> name = name' /\ want = want'.
Proof.
  intros N N' E. unfold leaf_text in E. destruct (String.eqb_spec name "") as [->|Ne], (String.eqb_spec name' "") as [->|Ne'].
  - cbn in E. injection E as E. apply cancel_r1 in E. auto.
  - exfalso. assert (X : "" ++ (quote_char ++ want ++ quote_char) = name' ++ "(" ++ (quote_char ++ want' ++ quote_char) ++ ")") by exact E.
    apply cut_name in X; [|reflexivity|exact N'|reflexivity|reflexivity]. destruct X as [X _]. now apply Ne'.
  - exfalso. assert (X : name ++ "(" ++ (quote_char ++ want ++ quote_char) ++ ")" = "" ++ (quote_char ++ want' ++ quote_char)) by exact E.
    apply cut_name in X; [|exact N|reflexivity|reflexivity|reflexivity]. destruct X as [X _]. now apply Ne.
  - apply cut_name in E; [|exact N|exact N'|reflexivity|reflexivity]. destruct E as [-> E]. split; [reflexivity|]. cbn in E. injection E as E. rewrite !sapp_assoc in E.
    change (want ++ quote_char ++ ")" = want' ++ quote_char ++ ")") in E. rewrite <- !sapp_assoc in E. apply cancel_r1, cancel_r1 in E. exact E.
Qed.

(** The first line of a node, with what ends it. *)
Definition first_line (c : string) (n : fnode) : string := head n ++ (if flat n then c else "").
Inductive form_of : fnode -> Prop :=
  | FLeaf i name p want : form_of (FNode i name p want [])
  | FSingle i name p want i' name' p' want' : form_of (FNode i name p want [FNode i' name' p' want' []])
  | FMany i name p want kids : flat (FNode i name p want kids) = false -> kids <> [] -> head (FNode i name p want kids) = name ++ "[" ++ itoa p ++ "]{" ->
      form_of (FNode i name p want kids).
Lemma form n : form_of n.
Proof.
  destruct n as [i name p want kids]. destruct kids as [|k kids]; [constructor|]. destruct k as [i' name' p' want' [|k' kids']].
  - destruct kids as [|k2 kids]; constructor; [reflexivity|discriminate|reflexivity].
  - destruct kids as [|k2 kids]; constructor; try reflexivity; discriminate.
Qed.
Lemma bracket_inj name p r name' p' r' : name_ok name = true -> name_ok name' = true ->
  name ++ "[" ++ itoa p ++ "]{" ++ r = name' ++ "[" ++ itoa p' ++ "]{" ++ r' -> name = name' /\ p = p' /\ r = r'.
Proof.
  intros N N' E. apply cut_name in E; [|exact N|exact N'|reflexivity|reflexivity]. destruct E as [-> E]. cbn in E. injection E as E.
  apply cut_digits in E; [|apply itoa_digits..]. destruct E as [E R]. injection R as R. apply itoa_inj in E. auto.
Qed.
Lemma leaf_bracket name want name' p' r c : name_ok name = true -> name_ok name' = true -> leaf_text name want ++ c = name' ++ "[" ++ itoa p' ++ r -> False.
Proof.
  intros N N' E. unfold leaf_text in E. destruct (String.eqb_spec name "") as [->|Ne].
  - assert (X : "" ++ ((quote_char ++ want ++ quote_char) ++ c) = name' ++ "[" ++ itoa p' ++ r) by exact E.
    apply cut_name in X; [|reflexivity|exact N'|reflexivity|reflexivity]. destruct X as [_ X]. discriminate.
  - rewrite !sapp_assoc in E. apply cut_name in E; [|exact N|exact N'|reflexivity|reflexivity]. destruct E as [_ E]. discriminate.
Qed.

Lemma starts_newline r : starts nl (newline ++ r).
Proof. right. eexists. reflexivity. Qed.
Lemma starts_elems tab kids r : starts nl (elems tab kids ++ newline ++ r).
Proof. destruct kids as [|k [|k2 kids]]; right; cbn; eexists; reflexivity. Qed.
Lemma elems_cons tab k kids : elems tab (k :: kids) = newline ++ pretty_fail (tab ++ tab_char) k ++ "," ++ elems tab kids.
Proof. unfold elems. cbn [map]. destruct kids; cbn [String.concat map]; [now rewrite sapp_nil|]. rewrite !sapp_assoc. reflexivity. Qed.

Section Induction.
Variable P : fnode -> Prop.
Hypothesis step : forall i name p want kids, Forall P kids -> P (FNode i name p want kids).
Fixpoint fnode_ind2 (n : fnode) : P n :=
  match n with FNode i name p want kids =>
    step i name p want kids ((fix all (l : list fnode) : Forall P l := match l with [] => Forall_nil _ | k :: l' => Forall_cons _ (fnode_ind2 k) (all l') end) kids)
  end.
End Induction.

Definition reads (n : fnode) : Prop := forall tab m c r r', readable n = true -> readable m = true -> (c = "" \/ c = ",") ->
  pretty_fail tab n ++ c ++ newline ++ r = pretty_fail tab m ++ c ++ newline ++ r' -> failure_of n = failure_of m /\ r = r'.

Lemma elems_reads tab c : (c = "" \/ c = ",") -> forall l l' r r', Forall reads l -> forallb readable l = true -> forallb readable l' = true ->
  elems tab l ++ newline ++ tab ++ "}" ++ c ++ newline ++ r = elems tab l' ++ newline ++ tab ++ "}" ++ c ++ newline ++ r' -> map failure_of l = map failure_of l' /\ r = r'.
Proof.
  intros C. induction l as [|k l IH]; intros [|k' l'] r r' A B B' E.
  - split; [reflexivity|]. cbn in E. injection E as E. apply cancel_l in E. injection E as E. apply cancel_l in E. now injection E.
  - exfalso. rewrite elems_cons, pretty_split in E. cbn in E. injection E as E. rewrite !sapp_assoc in E. apply cancel_l in E. discriminate.
  - exfalso. rewrite elems_cons, pretty_split in E. cbn in E. injection E as E. rewrite !sapp_assoc in E. apply cancel_l in E. discriminate.
  - rewrite !elems_cons, !sapp_assoc in E. apply cancel_l in E. inversion A as [|? ? Ak Al]; subst. cbn [forallb] in B, B'. apply andb_prop in B as [Bk Bl]. apply andb_prop in B' as [Bk' Bl'].
    assert (X : forall l r, exists r0, elems tab l ++ newline ++ tab ++ "}" ++ c ++ newline ++ r = newline ++ r0).
    { intros l0 r0. destruct l0; [cbn; eexists; reflexivity|]. rewrite elems_cons, !sapp_assoc. eexists. reflexivity. }
    destruct (X l r) as [r1 E1], (X l' r') as [r1' E1']. rewrite E1, E1' in E. destruct (Ak _ _ _ _ _ Bk Bk' (or_intror eq_refl) E) as [F ->].
    rewrite <- E1' in E1. destruct (IH l' r r' Al Bl Bl' E1) as [G ->]. cbn [map]. now rewrite F, G.
Qed.

Theorem report_reads : forall n, reads n.
Proof.
  apply fnode_ind2. intros i name p want kids A tab m c r r' N N' C E. rewrite !pretty_split, !sapp_assoc in E. apply cancel_l in E.
  set (n := FNode i name p want kids) in *.
  assert (Cn : want_ok c = true) by (destruct C as [->| ->]; reflexivity).
  assert (X : forall n r, head n ++ tail tab n ++ c ++ newline ++ r = first_line c n ++ (if flat n then newline ++ r else tail tab n ++ c ++ newline ++ r)).
  { intros n0 r0. unfold first_line, tail. destruct (flat n0); rewrite !sapp_assoc; reflexivity. }
  assert (S : forall n r, starts nl (if flat n then newline ++ r else tail tab n ++ c ++ newline ++ r)).
  { intros n0 r0. unfold tail. destruct (flat n0); [apply starts_newline|]. rewrite !sapp_assoc. apply starts_elems. }
  assert (L : forall n, readable n = true -> no_char nl (first_line c n)).
  { intros n0 R. apply no_nl. unfold first_line. change (want_ok (head n0 ++ (if flat n0 then c else "")) = true). rewrite want_app, (head_want _ R). destruct (flat n0); [exact Cn|reflexivity]. }
  rewrite !X in E. apply split_at with (c := nl) in E; auto. destruct E as [E1 E2]. clear X S L.
  subst n. pose proof (form (FNode i name p want kids)) as Fn. pose proof (form m) as Fm. inversion Fn as [? ? ? ?|? ? ? ? i1 name1 p1 want1|? ? ? ? ? Fl Nk Hd]; subst;
    inversion Fm as [i' name' p' want'|i' name' p' want' i1' name1' p1' want1'|i' name' p' want' kids' Fl' Nk' Hd']; subst; unfold first_line in E1;
    cbn [readable forallb] in N, N'; repeat match goal with H : _ && _ = true |- _ => apply andb_prop in H; destruct H end.
  - cbn [flat f_kids head] in *. apply cancel_end in E1; [|exact C]. apply leaf_inj in E1; [|assumption..]. destruct E1 as [-> ->]. split; [reflexivity|]. now injection E2.
  - exfalso. cbn [flat f_kids head] in E1. rewrite !sapp_assoc in E1. eapply leaf_bracket; [| |exact E1]; assumption.
  - exfalso. rewrite Hd', Fl', !sapp_assoc in E1. eapply leaf_bracket; [| |exact E1]; assumption.
  - exfalso. cbn [flat f_kids head] in E1. rewrite !sapp_assoc in E1. eapply leaf_bracket; [| |symmetry; exact E1]; assumption.
  - cbn [flat f_kids head] in *. rewrite !sapp_assoc in E1. apply bracket_inj in E1; [|assumption..]. destruct E1 as (-> & -> & E1).
    rewrite <- !sapp_assoc in E1. apply cancel_end in E1; [|exact C]. apply cancel_r1 in E1. apply leaf_inj in E1; [|assumption..]. destruct E1 as [-> ->]. split; [reflexivity|]. now injection E2.
  - exfalso. rewrite Hd', Fl', !sapp_assoc in E1. cbn [flat f_kids head] in E1. rewrite !sapp_assoc in E1. apply bracket_inj in E1; [|assumption..]. destruct E1 as (_ & _ & E1).
    unfold leaf_text in E1. destruct (String.eqb name1 ""); [discriminate|]. destruct name1; discriminate.
  - exfalso. rewrite Hd, Fl, !sapp_assoc in E1. eapply leaf_bracket; [| |symmetry; exact E1]; assumption.
  - exfalso. rewrite Hd, Fl, !sapp_assoc in E1. cbn [flat f_kids head] in E1. rewrite !sapp_assoc in E1. apply bracket_inj in E1; [|assumption..]. destruct E1 as (_ & _ & E1).
    unfold leaf_text in E1. destruct (String.eqb name1' ""); [discriminate|]. destruct name1'; discriminate.
  - rewrite Hd, Fl, Hd', Fl', !sapp_assoc in E1. apply bracket_inj in E1; [|assumption..]. destruct E1 as (-> & -> & _). rewrite Fl, Fl' in E2. unfold tail in E2. rewrite Fl, Fl' in E2. rewrite !sapp_assoc in E2.
    cbn [f_kids] in E2. apply (elems_reads tab c C) in E2; [|assumption..]. destruct E2 as [E2 ->]. split; [|reflexivity]. cbn [failure_of]. destruct kids, kids'; try contradiction. now rewrite E2.
Qed.
