(** What the operations on ASTs do with the trees that the parser returns. *)

From Coq Require Import String Ascii NArith ZArith PArith List Bool Arith Lia.
From Verif Require Import Base Utf8 PegSyntax Grammar Peg PegToaq PegSpec Tone Ast Action ActionSpec AstInd AstSorts
  Parser ParserSpec ApiFacts SortApi VisitSpec VisitFacts Equal EqualSpec EqualFacts Braces BracesSpec BracesFacts.
Import ListNotations.
Open Scope string_scope.
Open Scope list_scope.
Open Scope nat_scope.

(** ** The leading white space of a Text *)

Lemma find_text : toaq r_text = Rule "text" None
  (EAction AText [0; 1] (ESeq (ELabel 0 (EOpt (ECall 74%positive))) (ESeq (ELabel 1 (EOpt (ECall 3%positive))) (EOpt (ECall r_EOF))))).
Proof. vm_compute. reflexivity. Qed.
Lemma find_space_word : toaq 74%positive = Rule "space_word" None
  (EAction ASpace [0] (ELabel 0 (EPlus (ECall 222%positive)))).
Proof. vm_compute. reflexivity. Qed.

Definition plain_space (o : option node) : Prop := forall m, o = Some m -> exists t s e, m = NSpace (Wd t s e None).

(** ** Nodes inside sorted trees *)

Notation sorted := (AstSorts.sorted real_left real_right).
Notation sorted_word := (AstSorts.sorted_word real_left real_right).

(** A sorted node, or one that Visit shows inside of one. *)
Definition inside (m : node) : Prop :=
  sorted m = true \/ m = NDiscourse [] \/ m = NTerms [] \/
  (exists w, m = NWord w /\ sorted_word w = true) \/
  (exists k to0 to1 ru l r, m = NCoP CRaw to0 to1 ru l r /\ sorted (NCoP k to0 to1 ru l r) = true) \/
  (exists k lu st, m = NLU LRaw lu st /\ sorted (NLU k lu st) = true).

Definition inner (m : node) : Prop := inside m /\ shape_of m <> SText.

Lemma inner_is l n : no_text l = true -> among l n && sorted n = true -> inner n.
Proof.
  intros T H. apply andb_true_iff in H. destruct H as [A S]. split; [left; exact S|]. intro E.
  apply among_shape_in in A. rewrite E in A. unfold no_text in T. destruct (in_dec _ _ _); [discriminate|contradiction].
Qed.

Lemma inner_in l d k : no_text l = true -> forallb (fun x => among l x && sorted x) d = true -> In k d -> inner k.
Proof. intros T H I. rewrite forallb_forall in H. exact (inner_is l k T (H k I)). Qed.

Lemma inner_word w : sorted_word w = true -> inner (NWord w).
Proof. intro H. split; [|discriminate]. do 3 right. left. eauto. Qed.

Lemma inner_discourse d : forallb (fun x => among items x && sorted x) d = true -> inner (NDiscourse d).
Proof.
  split; [|discriminate]. destruct d; [right; left; reflexivity|]. left. cbn [AstSorts.sorted nonempty andb]. exact H.
Qed.

Lemma inner_terms d : forallb (fun x => among terms_ x && sorted x) d = true -> inner (NTerms d).
Proof.
  split; [|discriminate]. destruct d; [do 2 right; left; reflexivity|]. left. cbn [AstSorts.sorted nonempty andb]. exact H.
Qed.

Lemma real_left_no_text c b : no_text (real_left c b) = true.
Proof. destruct c, b; reflexivity. Qed.
Lemma real_right_no_text c : no_text (real_right c) = true.
Proof. destruct c; reflexivity. Qed.

Ltac split_kids :=
  repeat match goal with
  | o : option _ |- _ => destruct o; cbn [on_opt same_opt] in *
  end;
  cbn [kids maybe maybe_word app In] in *;
  repeat match goal with
  | H : (_ && _)%bool = true |- _ =>
      lazymatch type of H with
      | (among _ _ && _)%bool = true => fail
      | _ => apply andb_true_iff in H; destruct H
      end
  | H : _ \/ _ |- _ => destruct H as [<-|H]
  | H : False |- _ => destruct H
  | H : false = true |- _ => discriminate H
  end.

Ltac inner_step :=
  first [ eapply inner_is; [|eassumption]; first [reflexivity | apply real_left_no_text | apply real_right_no_text]
        | apply inner_word; assumption | apply inner_discourse; assumption | apply inner_terms; assumption
        | eapply inner_in; [|eassumption|eassumption]; reflexivity ].

Lemma inside_kids n k : inside n -> In k (kids n) -> inner k.
Proof.
  intros [S|[->|[->|[(w & -> & S)|[(c & to0 & to1 & ru & l & r & -> & S)|(c & lu & st & -> & S)]]]]] K.
  - assert (S' := S). destruct n; cbn [AstSorts.sorted] in S'; split_kids; try inner_step;
      try (split; [do 2 right; left; reflexivity|discriminate]); try (destruct k0; split_kids; try discriminate).
    all: try (split; [|discriminate]; do 4 right; left; do 6 eexists; split; [reflexivity|exact S]).
    all: try (split; [|discriminate]; do 5 right; do 3 eexists; split; [reflexivity|exact S]).
  - destruct K.
  - destruct K.
  - destruct w as [t s e m]. cbn [kids w_m] in K. destruct m as [m|]; [|destruct K]. destruct K as [<-|[]].
    exact (inner_is mods m eq_refl S).
  - cbn [AstSorts.sorted] in S. split_kids; inner_step.
  - cbn [AstSorts.sorted] in S. split_kids; inner_step.
Qed.

Lemma inside_below m n : below m n -> inside n -> m = n \/ inner m.
Proof.
  induction 1 as [|k n K _ IH]; [tauto|]. intro H. pose proof (inside_kids n k H K) as [I T].
  destruct (IH I) as [->|?]; right; [split|]; assumption.
Qed.

(** ** BracesString *)

Lemma printed_some :
  (forall d l s, printed d l s -> l <> []) /\
  (forall d l ss, printed_all d l ss -> ss <> [] -> l <> []).
Proof.
  apply printed_mut; intros; try discriminate.
  - apply H. destruct parts; [cbn in *; lia|discriminate].
  - congruence.
  - destruct ts1; [congruence|discriminate].
Qed.

Lemma braced_printed l s : printed 0 l s -> braced l s.
Proof. intro H. destruct l; [contradiction (proj1 printed_some _ _ _ H); reflexivity|exact H]. Qed.

Lemma only_space_braces n : only_space n = true -> forall c, braces c n = "".
Proof.
  revert n. fix IH 1. intros [] H c; try discriminate. destruct w as [t s e [m|]]; cbn [braces]; [|reflexivity].
  apply IH. exact H.
Qed.

Lemma node_shows_braced n : node_shows n -> braced (texts n) (braces_string n).
Proof.
  unfold node_shows, node_kid. destruct (only_space n) eqn:O; cbn [shows].
  - intros ->. exact (only_space_braces n O 0).
  - intro H. apply braced_printed. exact (H 0).
Qed.

Lemma inside_braced n : inside n -> shape_of n <> SText -> braced (texts n) (braces_string n).
Proof.
  intros [S|[->|[->|[(w & -> & S)|[(c & to0 & to1 & ru & l & r & -> & S)|(c & lu & st & -> & S)]]]]] NT.
  - apply node_shows_braced. exact (proj1 sorted_shows n S NT).
  - reflexivity.
  - reflexivity.
  - apply braced_printed. exact (proj1 (proj2 sorted_shows w S) 0).
  - assert (N : shape_of (NCoP c to0 to1 ru l r) <> SText) by discriminate.
    exact (node_shows_braced _ (proj1 sorted_shows _ S N)).
  - assert (N : shape_of (NLU c lu st) <> SText) by discriminate.
    exact (node_shows_braced _ (proj1 sorted_shows _ S N)).
Qed.

Lemma text_braced ld d : plain_space ld -> sorted (NText ld d) = true ->
  braced (texts (NText ld d)) (braces_string (NText ld d)).
Proof.
  intros P S. assert (L : olist texts ld = [] /\ node_kid_opt braces ld = None).
  { destruct ld as [m|]; [|split; reflexivity]. destruct (P m eq_refl) as (t & s & e & ->). split; reflexivity. }
  destruct L as [L1 L2]. cbn [AstSorts.sorted] in S. apply andb_true_iff in S. destruct S as [_ S].
  cbn [texts]. unfold braces_string. cbn [braces]. rewrite L1, L2. cbn [app].
  destruct d as [|x d]; [reflexivity|].
  assert (S' : sorted (NDiscourse (x :: d)) = true) by exact S.
  exact (node_shows_braced _ (proj1 sorted_shows _ S' ltac:(discriminate))).
Qed.

Section Api.
Variable is_punct : N -> bool.
Variable text : string.
Notation vsem := (vsem toaq is_punct text).

Lemma space_word_value pos q v en : vsem (ECall 74%positive) pos (AOk q (v, en)) ->
  exists t, v = VNode (NSpace (Wd t pos q None)).
Proof.
  intro H. inversion H; subst; [discriminate|].
  match goal with V : ActionSpec.vsem _ _ _ (r_body _) _ _ |- _ => rewrite find_space_word in V; cbn [r_body] in V; inversion V; subst end;
    try discriminate.
  match goal with V : ActionSpec.vsem _ _ _ (ELabel _ _) _ _ |- _ => inversion V; subst end; try discriminate.
  match goal with R : run_action _ _ _ _ _ = _ |- _ => cbn in R;
    match type of R with (match ?x with _ => _ end) = _ => destruct x end; try discriminate; injection R as <- end.
  eauto.
Qed.

Lemma full_text_leading q n en : vsem (ECall r_full_text) 0 (AOk q (VNode n, en)) ->
  exists ld d, n = NText ld d /\ plain_space ld.
Proof.
  intro H. inversion H; subst; try discriminate. clear H.
  match goal with V : ActionSpec.vsem _ _ _ (r_body _) _ _ |- _ => rewrite find_full in V; cbn [r_body] in V; inversion V; subst; clear V end;
    try discriminate.
  match goal with V : ActionSpec.vsem _ _ _ (ESeq _ _) _ _ |- _ => inversion V; subst; clear V end; try discriminate.
  match goal with V : ActionSpec.vsem _ _ _ (ELabel _ _) _ _ |- _ => inversion V; subst; clear V end; try discriminate.
  match goal with R : run_action _ _ _ _ _ = _ |- _ => cbn in R; injection R as R; subst end.
  match goal with V : ActionSpec.vsem _ _ _ (ECall r_text) _ _ |- _ => inversion V; subst; clear V end; try discriminate.
  match goal with V : ActionSpec.vsem _ _ _ (r_body (toaq r_text)) _ _ |- _ => rewrite find_text in V; cbn [r_body] in V; inversion V; subst; clear V end;
    try discriminate.
  match goal with V : ActionSpec.vsem _ _ _ (ESeq _ _) _ _ |- _ => inversion V; subst; clear V end; try discriminate.
  match goal with V : ActionSpec.vsem _ _ _ (ESeq _ _) _ _ |- _ => inversion V; subst; clear V end; try discriminate.
  repeat match goal with V : ActionSpec.vsem _ _ _ (ELabel _ _) _ _ |- _ => inversion V; subst; clear V; try discriminate end.
  match goal with V : ActionSpec.vsem _ _ _ (EOpt (ECall 74)) _ (AOk _ (?v, _)) |- _ =>
    assert (L : exists o, v = VOpt (option_map VNode o) /\ plain_space o) end.
  { match goal with V : ActionSpec.vsem _ _ _ (EOpt (ECall 74)) _ _ |- _ => inversion V; subst; try discriminate end.
    - match goal with V : ActionSpec.vsem _ _ _ (ECall 74) _ _ |- _ => destruct (space_word_value _ _ _ _ V) as (t & ->) end.
      eexists (Some _). split; [reflexivity|]. intros m E. injection E as <-. eauto.
    - exists None. split; [reflexivity|]. discriminate. }
  destruct L as (o & -> & P).
  match goal with R : run_action AText _ _ _ _ = _ |- _ => cbn in R;
    match type of R with (match ?x with _ => _ end) = _ => destruct x as [| | |d| | | | | | |] end; try discriminate;
    destruct o as [o|]; cbn in R; destruct d as [[]|]; try discriminate;
    try (match type of R with context [match ?x with _ => _ end] => destruct x end; try discriminate);
    injection R as <- end; eauto.
Qed.

Lemma got_text p n : reach is_punct text p -> fst (text_of is_punct p) = Ok (Got (Some n)) ->
  exists ld d, n = NText ld d /\ plain_space ld /\ sorted n = true.
Proof.
  intros H E. destruct (text_sorted _ _ p n H E) as [_ S].
  destruct (proj1 (text_sem _ _ p H) n) as [F _]. destruct (F E) as (q & V).
  destruct (full_text_leading _ _ _ V) as (ld & d & -> & P). eauto.
Qed.

Lemma text_below_braced p n m : reach is_punct text p -> fst (text_of is_punct p) = Ok (Got (Some n)) -> below m n ->
  braced (texts m) (braces_string m).
Proof.
  intros H E B. destruct (got_text p n H E) as (ld & d & -> & P & S).
  destruct (inside_below m _ B (or_introl S)) as [->|[I T]]; [apply text_braced; assumption|].
  apply inside_braced; assumption.
Qed.

Lemma braces_of_text p n m : reach is_punct text p -> fst (text_of is_punct p) = Ok (Got (Some n)) -> below m n ->
  exists l, says m l /\ braced l (braces_string m).
Proof.
  intros H E B. exists (texts m). split; [apply says_spec; reflexivity|]. eapply text_below_braced; eassumption.
Qed.

Lemma braces_of_word p offs w d m : reach is_punct text p -> fst (word_at is_punct offs p) = Ok (Got (w, d)) ->
  below m (NWord w) -> exists l, says m l /\ braced l (braces_string m).
Proof.
  intros H E B. exists (texts m). split; [apply says_spec; reflexivity|].
  pose proof (word_sorted _ _ p offs w d H E) as S. destruct (inner_word w S) as [I0 T0].
  destruct (inside_below m _ B I0) as [->|[I T]]; apply inside_braced; assumption.
Qed.

(** ** Equal *)

Lemma text_typed_tree p n : reach is_punct text p -> fst (text_of is_punct p) = Ok (Got (Some n)) -> typed_tree n.
Proof.
  intros H E. destruct (text_sorted _ _ p n H E) as [_ S]. exact (proj1 (sorted_typed _ _ (fun _ => eq_refl)) n S).
Qed.

End Api.

Lemma braces_parsed :
  (forall is_punct text p n m, reach is_punct text p -> fst (text_of is_punct p) = Ok (Got (Some n)) -> below m n ->
     exists l, says m l /\ braced l (braces_string m)) /\
  (forall is_punct text p offs w d m, reach is_punct text p -> fst (word_at is_punct offs p) = Ok (Got (w, d)) ->
     below m (NWord w) -> exists l, says m l /\ braced l (braces_string m)).
Proof. split; [exact braces_of_text|exact braces_of_word]. Qed.

Lemma equal_laws :
  (forall is_punct text p n m, reach is_punct text p -> fst (text_of is_punct p) = Ok (Got (Some n)) -> below m n ->
     typed_tree m \/ raw m) /\
  (forall a b, typed_tree a -> exists v, equal a b = Ok v) /\
  (forall a b, typed_tree a -> (equal a (Some b) = Ok true <-> same_but_positions a b)) /\
  (forall a, typed_tree a -> equal a None = Ok false) /\
  (forall a, typed_tree a -> equal a (Some a) = Ok true) /\
  (forall a b, typed_tree a -> typed_tree b -> equal a (Some b) = equal b (Some a)) /\
  (forall a b c, typed_tree a -> typed_tree b ->
     equal a (Some b) = Ok true -> equal b (Some c) = Ok true -> equal a (Some c) = Ok true).
Proof.
  split; [intros; eapply below_typed; [eassumption|eapply text_typed_tree; eassumption]|].
  split; [exact equal_returns|]. split; [exact equal_spec|].
  split; [|split; [|split]].
  - intros a H. destruct (proj1 equal_decides a H None) as (v & -> & S). destruct v; [|reflexivity].
    discriminate (proj1 S eq_refl).
  - intros a H. apply equal_spec; [exact H|reflexivity].
  - intros a b Ha Hb. destruct (equal_returns a (Some b) Ha) as (v & E). destruct (equal_returns b (Some a) Hb) as (v' & E').
    pose proof (equal_spec a b Ha) as S. pose proof (equal_spec b a Hb) as S'. rewrite E in *. rewrite E' in *.
    unfold same_but_positions in *. destruct v, v'; try reflexivity; exfalso.
    + assert (X : blank b = blank a) by (symmetry; apply S; reflexivity). apply S' in X. discriminate.
    + assert (X : blank a = blank b) by (symmetry; apply S'; reflexivity). apply S in X. discriminate.
  - intros a b c Ha Hb E1 E2. apply equal_spec in E1; [|exact Ha]. apply equal_spec in E2; [|exact Hb].
    apply equal_spec; [exact Ha|]. unfold same_but_positions in *. congruence.
Qed.
