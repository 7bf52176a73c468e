(** Start and End. *)

From Coq Require Import String NArith List Bool.
From Verif Require Import Base PegSyntax Ast AstInd AstSorts Parser VisitSpec SpanSpec BracesFacts AstApi.
Import ListNotations.
Open Scope list_scope.

Lemma initial_word w n : initial n (NWord w) -> n = NWord w.
Proof. intro H. inversion H as [|? ? ? E]; [reflexivity|discriminate]. Qed.

Lemma initial_step n k l m : parts n = k :: l -> initial m n -> m = n \/ initial m k.
Proof. intros E H. inversion H as [|k' ? l' E' H']; subst; [left; reflexivity|]. right. congruence. Qed.

Lemma final_step n k l m : parts n = l ++ [k] -> final m n -> m = n \/ final m k.
Proof.
  intros E H. inversion H as [|k' ? l' E' H']; subst; [left; reflexivity|]. right. rewrite E in E'.
  apply app_inj_tail in E'. destruct E' as [_ ->]. exact H'.
Qed.

(** What Start gives, by the word it finds. *)
Definition starts (n : node) : Prop :=
  (exists w, initial (NWord w) n /\ node_start n = Ok (w_s w)) \/
  (exists k, initial k n /\ empty_list k /\ node_start n = Panic PRuntime).
Definition ends (n : node) : Prop :=
  (exists w, final (NWord w) n /\ node_end n = Ok (w_e w)) \/
  (exists k, final k n /\ empty_list k /\ node_end n = Panic PRuntime).

Lemma starts_by n k l : parts n = k :: l -> node_start n = node_start k -> starts k -> starts n.
Proof.
  intros E N [(w & I & S)|(x & I & S & P)].
  - left. exists w. split; [exact (IFirst _ k n l E I)|congruence].
  - right. exists x. split; [exact (IFirst _ k n l E I)|]. split; [exact S|congruence].
Qed.

Lemma ends_by n k l : parts n = l ++ [k] -> node_end n = node_end k -> ends k -> ends n.
Proof.
  intros E N [(w & I & S)|(x & I & S & P)].
  - left. exists w. split; [exact (FLast _ k n l E I)|congruence].
  - right. exists x. split; [exact (FLast _ k n l E I)|]. split; [exact S|congruence].
Qed.

Lemma starts_word w : starts (NWord w).
Proof. left. exists w. split; [constructor|reflexivity]. Qed.
Lemma ends_word w : ends (NWord w).
Proof. left. exists w. split; [constructor|reflexivity]. Qed.

Lemma starts_discourse d : Forall starts d -> starts (NDiscourse d).
Proof.
  destruct 1 as [|x d H _]; [right; exists (NDiscourse []); split; [constructor|]; split; [right; reflexivity|reflexivity]|].
  eapply starts_by; [reflexivity|reflexivity|exact H].
Qed.
Lemma starts_terms d : Forall starts d -> starts (NTerms d).
Proof.
  destruct 1 as [|x d H _]; [right; exists (NTerms []); split; [constructor|]; split; [left; reflexivity|reflexivity]|].
  eapply starts_by; [reflexivity|reflexivity|exact H].
Qed.

Lemma list_last {A} (d : list A) : d = [] \/ exists d' x, d = d' ++ [x].
Proof. destruct d as [|y d]; [left; reflexivity|right]. destruct (exists_last (l := y :: d)) as (d' & x & E); [discriminate|eauto]. Qed.

Lemma last_of_app {A} (f : A -> res nat) d x : last_of f (d ++ [x]) = f x.
Proof.
  induction d as [|y d IH]; [reflexivity|]. cbn [app last_of]. destruct (d ++ [x]) eqn:E; [destruct d; discriminate|exact IH].
Qed.

Lemma ends_discourse d : Forall ends d -> ends (NDiscourse d).
Proof.
  intro H. destruct (list_last d) as [->|(d' & x & ->)].
  - right; exists (NDiscourse []); split; [constructor|]; split; [right; reflexivity|reflexivity].
  - eapply ends_by; [reflexivity|cbn [node_end]; apply last_of_app|]. apply Forall_app in H. destruct H as [_ H]. inversion H; assumption.
Qed.
Lemma ends_terms d : Forall ends d -> ends (NTerms d).
Proof.
  intro H. destruct (list_last d) as [->|(d' & x & ->)].
  - right; exists (NTerms []); split; [constructor|]; split; [left; reflexivity|reflexivity].
  - eapply ends_by; [reflexivity|cbn [node_end]; apply last_of_app|]. apply Forall_app in H. destruct H as [_ H]. inversion H; assumption.
Qed.

Ltac first_part :=
  repeat match goal with o : option _ |- _ => destruct o; cbn [onO] in * end;
  first [ apply starts_word
        | eapply starts_by; [reflexivity|reflexivity|]; first [assumption | apply starts_word | apply starts_discourse; assumption | apply starts_terms; assumption] ].

Lemma node_starts : forall n, starts n.
Proof.
  apply (node_word_ind starts (fun _ => True)); intros; try exact I; try first_part.
  - apply starts_discourse. assumption.
  - apply starts_terms. assumption.
  - assert (R : starts (NCoP CRaw to0 to1 ru l r)).
    { destruct to0; (eapply starts_by; [reflexivity|reflexivity|]); [apply starts_word|assumption]. }
    destruct k; try exact R; (eapply starts_by; [reflexivity| |exact R]; reflexivity).
  - assert (R : starts (NLU LRaw lu st)) by (eapply starts_by; [reflexivity|reflexivity|apply starts_word]).
    destruct k; try exact R; (eapply starts_by; [reflexivity| |exact R]; reflexivity).
Qed.

Lemma cons_app {A} (x : A) l l' y : l = l' ++ [y] -> x :: l = (x :: l') ++ [y].
Proof. intros ->. reflexivity. Qed.
Lemma one_app {A} (x : A) : [x] = [] ++ [x].
Proof. reflexivity. Qed.
Lemma app_app {A} (a l l' : list A) y : l = l' ++ [y] -> a ++ l = (a ++ l') ++ [y].
Proof. intros ->. apply app_assoc. Qed.
Ltac last_part := cbn [parts kids]; rewrite ?app_nil_r; repeat first [apply one_app | apply cons_app | apply app_app].

Ltac cop_ends :=
  match goal with |- ends (NCoP ?k ?a ?b ?c ?d ?e) =>
    let R := fresh in
    assert (R : ends (NCoP CRaw a b c d e)) by (eapply ends_by; [cbn [parts kids maybe_word app]; last_part|reflexivity|assumption]);
    destruct k; try exact R; (eapply ends_by; [apply one_app| |exact R]; reflexivity)
  end.

Lemma node_ends : forall n, ends n.
Proof.
  apply (node_word_ind ends (fun _ => True)); intros; try exact I;
    repeat match goal with o : option _ |- _ => destruct o; cbn [onO] in * end;
    try (eapply ends_by; [cbn [parts kids maybe maybe_word]; rewrite ?app_nil_r; cbn [app]; last_part|reflexivity|];
         first [assumption | apply ends_word | apply ends_discourse; assumption | apply ends_terms; assumption]).
  - apply ends_discourse. assumption.
  - eapply ends_by; [cbn [parts kids maybe_word app]; apply cons_app, one_app|reflexivity|]. apply ends_terms. constructor.
  - apply ends_terms. assumption.
  - cop_ends. 
  - cop_ends.
  - cop_ends.
  - cop_ends.
  - assert (R : ends (NLU LRaw lu st)) by (eapply ends_by; [cbn [parts kids]; last_part|reflexivity|assumption]).
    destruct k; try exact R; (eapply ends_by; [apply one_app| |exact R]; reflexivity).
  - apply ends_word.
Qed.

(** ** The word found is the only one *)

Lemma initial_leaf a b n : parts a = [] -> parts b = [] -> initial a n -> initial b n -> a = b.
Proof.
  intros A B H. induction H as [|k n l E _ IH]; intro H'.
  - inversion H' as [|? ? ? E]; [reflexivity|congruence].
  - apply IH. destruct (initial_step n k l b E H') as [->|?]; [congruence|assumption].
Qed.

Lemma final_leaf a b n : parts a = [] -> parts b = [] -> final a n -> final b n -> a = b.
Proof.
  intros A B H. induction H as [|k n l E _ IH]; intro H'.
  - inversion H' as [|? ? l E]; [reflexivity|]. rewrite A in E. destruct l; discriminate.
  - apply IH. destruct (final_step n k l b E H') as [->|?]; [|assumption]. rewrite B in E. destruct l; discriminate.
Qed.

Lemma empty_leaf k : empty_list k -> parts k = [] /\ forall w, k <> NWord w.
Proof. intros [->| ->]; split; try reflexivity; discriminate. Qed.

Lemma start_spec n :
  (forall i, node_start n = Ok i <-> exists w, initial (NWord w) n /\ w_s w = i) /\
  (node_start n = Panic PRuntime <-> exists k, initial k n /\ empty_list k) /\
  ((exists i, node_start n = Ok i) \/ node_start n = Panic PRuntime).
Proof.
  destruct (node_starts n) as [(w & I & S)|(x & I & X & S)]; rewrite S.
  - split; [|split; [|eauto]].
    + intro i. split; [intro E; injection E as <-; eauto|]. intros (w' & I' & <-).
      pose proof (initial_leaf (NWord w) (NWord w') n eq_refl eq_refl I I') as E. injection E as ->. reflexivity.
    + split; [discriminate|]. intros (k & K & E). destruct (empty_leaf k E) as [L N].
      contradiction (N w). exact (initial_leaf k (NWord w) n L eq_refl K I).
  - destruct (empty_leaf x X) as [L N]. split; [|split; [|eauto]].
    + intro i. split; [discriminate|]. intros (w' & I' & _). contradiction (N w'). exact (initial_leaf x (NWord w') n L eq_refl I I').
    + split; eauto.
Qed.

Lemma end_spec n :
  (forall i, node_end n = Ok i <-> exists w, final (NWord w) n /\ w_e w = i) /\
  (node_end n = Panic PRuntime <-> exists k, final k n /\ empty_list k) /\
  ((exists i, node_end n = Ok i) \/ node_end n = Panic PRuntime).
Proof.
  destruct (node_ends n) as [(w & I & S)|(x & I & X & S)]; rewrite S.
  - split; [|split; [|eauto]].
    + intro i. split; [intro E; injection E as <-; eauto|]. intros (w' & I' & <-).
      pose proof (final_leaf (NWord w) (NWord w') n eq_refl eq_refl I I') as E. injection E as ->. reflexivity.
    + split; [discriminate|]. intros (k & K & E). destruct (empty_leaf k E) as [L N].
      contradiction (N w). exact (final_leaf k (NWord w) n L eq_refl K I).
  - destruct (empty_leaf x X) as [L N]. split; [|split; [|eauto]].
    + intro i. split; [discriminate|]. intros (w' & I' & _). contradiction (N w'). exact (final_leaf x (NWord w') n L eq_refl I I').
    + split; eauto.
Qed.

(** ** Parsed trees *)

Notation sorted := (AstSorts.sorted real_left real_right).

(** The nodes inside a parsed tree without any word of their own. *)
Definition wordless (n : node) : Prop := empty_list n \/ exists ld, n = NText ld [].

Definition pstart (n : node) : Prop := sorted n = true -> (forall ld, n <> NText ld []) -> exists i, node_start n = Ok i.

Lemma start_is l n : no_text l = true -> pstart n -> among l n && sorted n = true -> exists i, node_start n = Ok i.
Proof.
  intros T P H. destruct (inner_is l n T H) as [_ N]. apply andb_true_iff in H. apply P; [tauto|]. intros ld ->. apply N. reflexivity.
Qed.

Lemma start_first l d : no_text l = true -> Forall pstart d -> nonempty d = true -> forallb (fun x => among l x && sorted x) d = true ->
  exists i, first node_start d = Ok i.
Proof.
  intros T P N H. destruct P as [|x d Px _]; [discriminate|]. cbn [forallb] in H. apply andb_true_iff in H. destruct H as [H _].
  exact (start_is l x T Px H).
Qed.

Ltac start_case :=
  first [ eexists; reflexivity
        | eapply start_is; [|eassumption|eassumption]; first [reflexivity|apply real_left_no_text|apply real_right_no_text]
        | eapply start_first; [|eassumption|eassumption|eassumption]; reflexivity ].

Lemma sorted_start : forall n, pstart n.
Proof.
  apply (node_word_ind pstart (fun _ => True)); intros; try exact I; intros S N; cbn [AstSorts.sorted] in S;
    repeat match goal with
    | H : (_ && _)%bool = true |- _ =>
        lazymatch type of H with (among _ _ && _)%bool = true => fail | _ => apply andb_true_iff in H; destruct H end
    end; cbn [node_start]; try start_case; try discriminate.
  - destruct d as [|x d]; [contradiction (N ld); reflexivity|]. eapply start_first; [| |reflexivity|]; [|eassumption|eassumption]. reflexivity.
  - destruct je; start_case.
  - destruct f; [start_case|]. destruct q; start_case.
  - destruct to0; start_case.
Qed.

Lemma inside_start n : inside n -> ~ wordless n -> exists i, node_start n = Ok i.
Proof.
  intros [S|[->|[->|[(w & -> & S)|[(c & to0 & to1 & ru & lf & r & -> & S)|(c & lu & st & -> & S)]]]]] N.
  - apply sorted_start; [exact S|]. intros ld ->. apply N. right. eauto.
  - exfalso. apply N. left. right. reflexivity.
  - exfalso. apply N. left. left. reflexivity.
  - eexists. reflexivity.
  - exact (sorted_start _ S ltac:(discriminate)).
  - eexists. reflexivity.
Qed.

Lemma wordless_start n : wordless n -> node_start n = Panic PRuntime /\ node_end n = Panic PRuntime.
Proof. intros [[->| ->]|(ld & ->)]; split; reflexivity. Qed.

(** A predication that consists of its predicate only. *)
Definition bare_end (n : node) : Prop := exists p, final (NPredication p None None) n.
Definition ends_well (n : node) : Prop := (exists i, node_end n = Ok i) \/ bare_end n.
Definition pend (n : node) : Prop := sorted n = true -> (forall ld, n <> NText ld []) -> ends_well n.

Lemma ends_well_by n k l : parts n = l ++ [k] -> node_end n = node_end k -> ends_well k -> ends_well n.
Proof.
  intros E N [(i & S)|(p & F)]; [left; exists i; congruence|right]. exists p. exact (FLast _ k n l E F).
Qed.

Lemma end_is l n : no_text l = true -> pend n -> among l n && sorted n = true -> ends_well n.
Proof.
  intros T P H. destruct (inner_is l n T H) as [_ N]. apply andb_true_iff in H. apply P; [tauto|]. intros ld ->. apply N. reflexivity.
Qed.

Lemma end_last l d n : no_text l = true -> Forall pend d -> nonempty d = true -> forallb (fun x => among l x && sorted x) d = true ->
  parts n = d -> node_end n = last_of node_end d -> ends_well n.
Proof.
  intros T P N H E L. destruct (list_last d) as [->|(d' & x & ->)]; [discriminate|]. rewrite last_of_app in L.
  apply (ends_well_by n x d' E L). apply Forall_app in P. destruct P as [_ P]. inversion P; subst.
  rewrite forallb_app in H. apply andb_true_iff in H. destruct H as [_ H]. cbn [forallb] in H. rewrite andb_true_r in H.
  eapply end_is; eassumption.
Qed.

Ltac end_case :=
  first [ left; eexists; reflexivity
        | eapply ends_well_by; [cbn [parts kids maybe maybe_word]; rewrite ?app_nil_r; cbn [app]; last_part|reflexivity|];
          eapply end_is; [|eassumption|eassumption]; first [reflexivity|apply real_left_no_text|apply real_right_no_text]
        | eapply end_last; [|eassumption|eassumption|eassumption|reflexivity|reflexivity]; reflexivity ].

Lemma text_end ld d : Forall pend d -> forallb (fun x => among items x && sorted x) d = true ->
  (forall ld', NText ld d <> NText ld' []) -> ends_well (NText ld d).
Proof.
  intros P H N. apply (ends_well_by _ (NDiscourse d) []); [reflexivity|reflexivity|].
  destruct d as [|x d]; [contradiction (N ld); reflexivity|].
  apply (end_last items (x :: d)); try assumption; reflexivity.
Qed.

Ltac cop_end :=
  match goal with |- ends_well (NCoP ?k ?a ?b ?c ?d ?e) =>
    let R := fresh in
    assert (R : ends_well (NCoP CRaw a b c d e)) by end_case;
    destruct k; try exact R; (eapply ends_well_by; [apply one_app|reflexivity|exact R])
  end.

Lemma sorted_end : forall n, pend n.
Proof.
  apply (node_word_ind pend (fun _ => True)); intros; try exact I; intros S N; cbn [AstSorts.sorted] in S;
    repeat match goal with
    | H : (_ && _)%bool = true |- _ =>
        lazymatch type of H with (among _ _ && _)%bool = true => fail | _ => apply andb_true_iff in H; destruct H end
    end; try end_case; try discriminate;
    repeat match goal with o : option _ |- _ => destruct o; cbn [onO on_opt] in * end; try end_case.
  - apply (text_end (Some n)); [assumption|assumption|exact N].
  - apply (text_end None); [assumption|assumption|exact N].
  - match goal with H : (_ && _)%bool = true |- _ =>
      match type of H with (nonempty _ && _)%bool = true => apply andb_true_iff in H; destruct H end end.
    apply (ends_well_by _ (NTerms l) [p]); [reflexivity|reflexivity|].
    eapply end_last; [|eassumption|eassumption|eassumption|reflexivity|reflexivity]; reflexivity.
  - right. exists p. constructor.
  - cop_end.
  - cop_end.
  - cop_end.
  - cop_end.
  - assert (R : ends_well (NLU LRaw lu st)) by end_case.
    destruct k; try exact R; (eapply ends_well_by; [apply one_app|reflexivity|exact R]).
Qed.

Lemma raw_final n k m : parts n = [k] -> final m n -> m = n \/ final m k.
Proof. intro E. apply (final_step n k []). exact E. Qed.

Lemma inside_end n : inside n -> ~ wordless n -> ends_well n.
Proof.
  intros [S|[->|[->|[(w & -> & S)|[(c & to0 & to1 & ru & lf & r & -> & S)|(c & lu & st & -> & S)]]]]] N.
  - apply sorted_end; [exact S|]. intros ld ->. apply N. right. eauto.
  - exfalso. apply N. left. right. reflexivity.
  - exfalso. apply N. left. left. reflexivity.
  - left. eexists. reflexivity.
  - pose proof (sorted_end _ S ltac:(discriminate)) as [(i & E)|(p & F)]; [left; exists i; exact E|].
    destruct c; try (right; exists p; exact F); right; exists p;
      (match type of F with final _ ?n => destruct (raw_final n _ _ eq_refl F) as [X|X]; [discriminate|exact X] end).
  - pose proof (sorted_end _ S ltac:(discriminate)) as [(i & E)|(p & F)]; [left; exists i; exact E|].
    destruct c; try (right; exists p; exact F); right; exists p;
      (match type of F with final _ ?n => destruct (raw_final n _ _ eq_refl F) as [X|X]; [discriminate|exact X] end).
Qed.

Lemma bare_end_panics n : bare_end n -> node_end n = Panic PRuntime.
Proof.
  intros (p & F). apply end_spec. exists (NTerms []). split; [|left; reflexivity].
  assert (F0 : final (NTerms []) (NPredication p None None)) by (apply (FLast _ (NTerms []) _ [p]); [reflexivity|constructor]).
  induction F as [|k n l E _ IH]; [exact F0|]. exact (FLast _ k n l E IH).
Qed.

Section Api.
Variable is_punct : N -> bool.
Variable text : string.

(** On a node of a parsed text Start panics only if it has no words, End only then or if
    it ends in a predicate without terms and NA. *)
Lemma parsed_spans p n m : reach is_punct text p -> fst (text_of is_punct p) = Ok (Got (Some n)) -> below m n ->
  (node_start m = Panic PRuntime <-> wordless m) /\
  (node_end m = Panic PRuntime <-> wordless m \/ bare_end m).
Proof.
  intros H E B. destruct (got_text _ _ p n H E) as (ld & d & -> & P & S).
  assert (I : inside m).
  { destruct (inside_below m _ B (or_introl S)) as [->|[I _]]; [left; exact S|exact I]. }
  assert (D : wordless m \/ ~ wordless m).
  { unfold wordless, empty_list. destruct m; try (right; intros [[X|X]|(? & X)]; discriminate).
    - match goal with |- context [NText _ ?d0] => destruct d0 end; [left; right; eauto|right; intros [[X|X]|(? & X)]; discriminate].
    - match goal with |- context [NDiscourse ?d0] => destruct d0 end; [left; left; right; reflexivity|right; intros [[X|X]|(? & X)]; discriminate].
    - destruct ts; [left; left; left; reflexivity|right; intros [[X|X]|(? & X)]; discriminate]. }
  split; split.
  - intro X. destruct D as [D|D]; [exact D|]. destruct (inside_start m I D) as (i & Y). congruence.
  - intro X. apply wordless_start. exact X.
  - intro X. destruct D as [D|D]; [left; exact D|]. destruct (inside_end m I D) as [(i & Y)|Y]; [congruence|right; exact Y].
  - intros [X|X]; [apply wordless_start; exact X|apply bare_end_panics; exact X].
Qed.
End Api.
