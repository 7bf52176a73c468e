(** The numbers of variables in the trees of covered sentences (C36, C37). *)

From Coq Require Import String Ascii NArith List Bool Arith Lia.
From Verif Require Import Base PegSyntax Tone Ast Logic LogicWords LogicSpec ScopeSpec LogicString OrderFacts SeqFacts TermFacts LogicFuel LogicApi
  ScopeNum Meaning Clauses ClauseHeap ClauseEnd ClauseOne ClauseNotation ClauseShown ClauseWritten Orderly OrderlyEnd OrderlyFacts LogicCases AstCases Introduced.
Import LogicSpec LogicApi.
Import ListNotations.
Open Scope string_scope.
Open Scope list_scope.
Open Scope nat_scope.

Scheme shows_ind2 := Induction for shows Sort Prop
  with shows_p_ind2 := Induction for shows_p Sort Prop
  with shows_t_ind2 := Induction for shows_t Sort Prop
  with shows_r_ind2 := Induction for shows_r Sort Prop.
Combined Scheme shows_all from shows_ind2, shows_p_ind2, shows_t_ind2, shows_r_ind2.

Section Trees.
Variables (h : heap) (bn name : ref -> nat).

Definition tag (x : ref) : list intro :=
  match nth_error h x with
  | Some (CBinding _ _ _ _ _) => [Binder (bn x)]
  | Some (CVariable _ None _) => [Nameless (name x)]
  | _ => []
  end.
Lemma tags_intro l : NoDup (flat_map tag l) -> NoDup (filter (introduces h) l).
Proof.
  assert (X : forall x l, introduces h x = true -> In x l -> forall y, In y (tag x) -> In y (flat_map tag l)) by (intros x m _ I y J; apply in_flat_map; eauto).
  induction l as [|x l IH]; cbn; intros D; [constructor|]. unfold introduces at 1. unfold tag in D at 1. destruct (nth_error h x) as [[]|] eqn:E; cbn [app] in D; try apply IH, D.
  - inversion D as [|? ? N D']; subst. constructor; [|apply IH, D']. intros I. apply filter_In in I as [I T]. apply N. apply (X x); [exact T|exact I|]. unfold tag. rewrite E. now left.
  - destruct def; [apply IH, D|]. cbn [app] in D. inversion D as [|? ? N D']; subst. constructor; [|apply IH, D']. intros I. apply filter_In in I as [I T]. apply N. apply (X x); [exact T|exact I|].
    unfold tag. rewrite E. now left.
Qed.

Definition goes (ks : list ref) (il : list intro) (ml : list nat) : Prop :=
  forall f l, flat_res (visited h f) ks = Ok l ->
    flat_map tag l = il /\ forall y, In y ml -> exists x d, In x l /\ refers h x d /\ bn d = y.
Lemma goes_nil : goes [] [] [].
Proof. intros f l E. injection E as <-. split; [reflexivity|intros y []]. Qed.
Lemma goes_app ks ks' il il' ml ml' : goes ks il ml -> goes ks' il' ml' -> goes (ks ++ ks') (il ++ il') (ml ++ ml').
Proof.
  intros A B f l E. assert (exists a b, flat_res (visited h f) ks = Ok a /\ flat_res (visited h f) ks' = Ok b /\ l = a ++ b) as (a & b & Ea & Eb & ->).
  { clear A B. revert l E. induction ks as [|k ks IH]; intros l E; [exists [], l; auto|]. cbn [app flat_res] in *. destruct (visited h f k) as [v| |]; cbn [bind] in *; try discriminate.
    destruct (flat_res (visited h f) (ks ++ ks')) as [w| |] eqn:W; cbn [bind] in E; try discriminate. injection E as <-. destruct (IH _ eq_refl) as (a & b & -> & Eb & ->).
    exists (v ++ a), b. cbn [bind]. now rewrite app_assoc. }
  destruct (A _ _ Ea) as [<- A']. destruct (B _ _ Eb) as [<- B']. split; [apply flat_map_app|]. intros y J.
  apply in_app_or in J as [J|J]; [destruct (A' y J) as (x & d & I & R)|destruct (B' y J) as (x & d & I & R)]; exists x, d; rewrite in_app_iff; auto.
Qed.
Lemma goes_cell r c il ml : nth_error h r = Some c -> (match c with CVariable _ _ _ => False | _ => True end) -> goes (below c) il ml -> goes [r] (tag r ++ il) ml.
Proof.
  intros E N A f l V. cbn [flat_res] in V. destruct (visited h f r) as [v| |] eqn:W; cbn [bind] in V; try discriminate. injection V as <-. rewrite app_nil_r.
  destruct (visited_inv _ _ _ _ W) as (f' & c' & l' & _ & E' & F & ->). rewrite E in E'. injection E' as <-. destruct (A _ _ F) as [<- B]. split; [reflexivity|].
  intros y J. destruct (B y J) as (x & d & I & R). exists x, d. split; [now right|exact R].
Qed.
Lemma goes_var r v : shows_var h bn name r v -> goes [r] (intro_var v) (of_var v).
Proof.
  intros S f l V. cbn [flat_res] in V. destruct (visited h f r) as [w| |] eqn:W; cbn [bind] in V; try discriminate. injection V as <-. rewrite app_nil_r.
  destruct (visited_inv _ _ _ _ W) as (f' & c' & l' & _ & E' & F & ->). destruct S as [r n d fo E|r n E]; rewrite E in E'; injection E' as <-; injection F as <-; cbn [flat_map]; unfold tag; rewrite E.
  - split; [reflexivity|]. intros y [<-|[]]. exists r, d. split; [now left|]. split; [now exists n, fo|reflexivity].
  - split; [reflexivity|]. intros y [].
Qed.
Lemma goes_property r p : shows_property h bn name r p -> goes [r] (introduced_s p) (mentions_s p).
Proof.
  induction 1 as [r s E|r v S|r x y p q E A IA B IB].
  - pose proof (goes_cell r _ [] [] E I goes_nil) as G. unfold tag in G. rewrite E in G. exact G.
  - apply goes_var, S.
  - pose proof (goes_cell r _ _ _ E I (goes_app _ _ _ _ _ _ IA IB)) as G. unfold tag in G. rewrite E in G. exact G.
Qed.

Lemma goes_all :
  (forall r F, shows h bn name r F -> goes [r] (introduced F) (mentions F)) /\
  (forall r p, shows_p h bn name r p -> goes [r] (introduced_p p) (mentions_p p)) /\
  (forall r a, shows_t h bn name r a -> goes [r] (introduced_t a) (mentions_t a)) /\
  (forall xs l, shows_r h bn name xs l -> goes (flat_map olist xs) (introduced_r l) (mentions_r l)).
Proof.
  apply shows_all; cbn [introduced introduced_p introduced_t introduced_r mentions mentions_p mentions_t mentions_r flat_map olist app].
  all: try (intros r c x y F G E _ A _ B; pose proof (goes_cell r _ _ _ E I (goes_app _ _ _ _ _ _ A B)) as K; unfold tag in K; rewrite E in K; exact K).
  - intros r x xs p l E _ A _ B. pose proof (goes_cell r _ _ _ E I (goes_app _ _ _ _ _ _ A B)) as K. unfold tag in K. rewrite E in K. exact K.
  - intros r q n f s G E _ A. pose proof (goes_cell r _ _ _ E I A) as K. unfold tag in K. rewrite E in K. exact K.
  - intros r q n f x s R G E _ A _ B. pose proof (goes_cell r _ _ _ E I (goes_app _ _ _ _ _ _ A B)) as K. unfold tag in K. rewrite E in K. exact K.
  - intros r p S. apply goes_property, S.
  - intros r x F E _ A. pose proof (goes_cell r _ _ _ E I A) as K. unfold tag in K. rewrite E in K. exact K.
  - intros r v S. apply goes_var, S.
  - intros r s f E. pose proof (goes_cell r _ [] [] E I goes_nil) as K. unfold tag in K. rewrite E in K. exact K.
  - intros r x F E _ A. pose proof (goes_cell r _ _ _ E I A) as K. unfold tag in K. rewrite E in K. exact K.
  - intros r xs l E _ A. pose proof (goes_cell r _ _ _ E I A) as K. unfold tag in K. rewrite E in K. exact K.
  - apply goes_nil.
  - intros xs l _ A. exact A.
  - intros x xs a l _ A _ B. exact (goes_app _ _ _ _ _ _ A B).
Qed.
Lemma tree_intro r F f l : shows h bn name r F -> visited h f r = Ok l ->
  flat_map tag l = introduced F /\ forall y, In y (mentions F) -> exists x d, In x l /\ refers h x d /\ bn d = y.
Proof.
  intros S V. apply (proj1 goes_all _ _ S f). cbn [flat_res]. rewrite V. cbn [bind]. now rewrite app_nil_r.
Qed.
End Trees.

(** Trees whose variables are in scope. *)
Theorem scoped_numbers U d t l : outcome U d (Ok (Some t)) -> scoped t -> nodes t l -> NoDup (filter (introduces (snd t)) l) ->
  (forall k x, nth_error (filter (introduces (snd t)) l) k = Some x -> number (snd t) x = Some k) /\
  (forall x b, In x l -> refers (snd t) x b -> In b (filter (introduces (snd t)) l) /\ number (snd t) x = number (snd t) b).
Proof.
  intros O Sc N D. destruct (outcome_numbers _ _ _ _ O N D) as [Q1 Q2]. split; [exact Q1|]. destruct t as [r h]. cbn [snd] in *. destruct N as [f V]. cbn [fst snd] in V.
  intros x b I R. destruct (visited_occurs _ _ _ _ _ V I) as (sc & Oc). destruct (occurs_before _ _ _ _ Oc _ _ V) as [_ Bf].
  destruct (Bf b (Sc _ _ _ Oc R)) as [B1 B2]. split; [|apply Q2; assumption]. apply filter_In. split; [|exact B2].
  destruct B1 as (p & q & s & ->). rewrite in_app_iff. right. left. reflexivity.
Qed.
Theorem scoped_period U d t l s : outcome U d (Ok (Some t)) ->
  scoped t -> nodes t l -> NoDup (filter (introduces (snd t)) l) ->
  (forall b, In b l -> binding (snd t) b = true -> exists x, In x l /\ refers (snd t) x b) ->
  prints U (Some t) s -> exists body, s = (body ++ ".")%string.
Proof.
  intros O Sc N D Used [pf P]. destruct (scoped_numbers _ _ _ _ O Sc N D) as [Q1 Q2]. destruct t as [r h]. cbn [snd] in *.
  destruct N as [f V]. cbn [fst snd] in V. specialize (P (pf + f) ltac:(lia)). unfold string_ in P.
  assert (V' : visited h (pf + f) r = Ok l) by (destruct (le_visited h f (pf + f) r ltac:(lia)) as [X|X]; congruence).
  refine (print_period _ _ _ _ _ _ _ _ V' _ P). clear P V V'.
  assert (Var : forall x n, In x l -> introduces h x = true -> number h x = Some n -> In n (variable_numbers h l)).
  { intros x n I J M. unfold variable_numbers. apply in_flat_map. unfold introduces in J. unfold number in M. destruct (nth_error h x) as [[]|] eqn:E; try discriminate.
    - injection M as ->. destruct (Used x I) as (y & Iy & R); [unfold binding; now rewrite E|]. exists y. split; [exact Iy|].
      destruct (Q2 _ _ Iy R) as [_ M]. unfold number in M. destruct R as (m & fo & Ey). rewrite E, Ey in *. injection M as ->. left. reflexivity.
    - injection M as ->. exists x. rewrite E. split; [exact I|left; reflexivity]. }
  assert (Bd : forall v, In v (variable_numbers h l) -> v < length (filter (introduces h) l)).
  { intros v I. unfold variable_numbers in I. apply in_flat_map in I. destruct I as (x & I & J). destruct (nth_error h x) as [[| | |n df fo| | | | | | ]|] eqn:E; try destruct J as [].
    - subst v. destruct df as [b|].
      + destruct (Q2 x b I ltac:(exists n, fo; exact E)) as [Ib M]. apply In_nth_error in Ib. destruct Ib as (k & K). rewrite (Q1 _ _ K) in M. unfold number in M. rewrite E in M.
        injection M as ->. apply nth_error_Some. congruence.
      + assert (Ix : In x (filter (introduces h) l)) by (apply filter_In; split; [exact I|unfold introduces; now rewrite E]).
        apply In_nth_error in Ix. destruct Ix as (k & K). assert (M := Q1 _ _ K). unfold number in M. rewrite E in M. injection M as ->.
        apply nth_error_Some. intros Z. discriminate (eq_trans (eq_sym K) Z).
    - contradiction. }
  intros v w I L. apply Bd in I. destruct (nth_error (filter (introduces h) l) w) as [x|] eqn:K; [|apply nth_error_None in K; lia].
  assert (M := Q1 _ _ K). apply nth_error_In, filter_In in K. destruct K as [K1 K2]. eapply Var; eassumption.
Qed.

Section Covered.
Variables (U : unicode) (d : list node) (t : ref * heap) (F : form) (l : list ref).
Hypothesis O : outcome U d (Ok (Some t)).
Hypothesis Co : forall n, In n d -> sentence_item n -> covered U (o_letters diacritic) n = true.
Hypothesis C : conveys U (o_letters diacritic) d F.
Hypothesis St : stray F = [].
Hypothesis D : NoDup (introduced F).
Hypothesis N : nodes t l.

Theorem covered_numbers :
  length (filter (introduces (snd t)) l) = length (introduced F) /\
  (forall k x, nth_error (filter (introduces (snd t)) l) k = Some x -> number (snd t) x = Some k) /\
  (forall x b, In x l -> refers (snd t) x b -> In b (filter (introduces (snd t)) l) /\ number (snd t) x = number (snd t) b).
Proof.
  destruct t as [r h]. destruct (clauses_mean _ _ _ _ O Co) as (F' & bn & name & C' & Sh & _). assert (F' = F) by (eapply conveys_one; eassumption). subst F'.
  destruct N as [f V]. cbn [fst snd] in *. destruct (tree_intro _ _ _ _ _ _ _ Sh V) as [E _]. split.
  - rewrite <- E. clear. induction l as [|x m IH]; [reflexivity|]. cbn [filter flat_map]. rewrite app_length, <- IH. unfold introduces at 1, tag. destruct (nth_error h x) as [[]|]; try reflexivity.
    destruct def; reflexivity.
  - apply (scoped_numbers U d (r, h) l); [exact O| |exists f; exact V|].
    + apply (covered_scoped U d (r, h) F O Co C). exact St.
    + apply (tags_intro h bn name). cbn [snd]. rewrite E. exact D.
Qed.

Theorem covered_period s : (forall x, In (Binder x) (introduced F) -> In x (mentions F)) -> prints U (Some t) s -> exists body, s = (body ++ ".")%string.
Proof.
  intros M P. destruct t as [r h]. destruct (clauses_mean _ _ _ _ O Co) as (F' & bn & name & C' & Sh & Inj & _). assert (F' = F) by (eapply conveys_one; eassumption). subst F'.
  assert (Sc : scoped (r, h)) by (apply (covered_scoped U d (r, h) F O Co C); exact St).
  assert (N' := N). destruct N' as [f V]. cbn [fst snd] in *. destruct (tree_intro _ _ _ _ _ _ _ Sh V) as [E Mn].
  apply (scoped_period U d (r, h) l s O Sc N); [apply (tags_intro h bn name); cbn [snd]; rewrite E; exact D| |exact P].
  cbn [snd]. intros b I B. assert (Ib : In (Binder (bn b)) (introduced F)).
  { rewrite <- E. apply in_flat_map. exists b. split; [exact I|]. unfold tag. unfold binding in B. destruct (nth_error h b) as [[]|]; try discriminate. now left. }
  destruct (Mn _ (M _ Ib)) as (x & d' & Ix & R & Eb). assert (d' = b); [|subst; eauto]. apply Inj; [|exact B|exact Eb].
  destruct (visited_occurs _ _ _ _ _ V Ix) as (sc & Oc). assert (J := Sc _ _ _ Oc R). cbn [fst snd] in *. clear - Oc J.
  induction Oc as [|r c k sc x E K O IH]; [destruct J|]. destruct c; try exact (IH J). destruct J as [<-|J]; [|exact (IH J)]. unfold is_binding. now rewrite E.
Qed.
End Covered.

Theorem covered_nodes U d t : outcome U d (Ok (Some t)) ->
  (forall n, In n d -> sentence_item n -> covered U (o_letters diacritic) n = true) -> exists l, nodes t l.
Proof.
  destruct t as [r h]. intros O Co. destruct (clauses_tree _ _ _ _ O Co) as (F & h1 & k & X & f & l & _ & _ & _ & V & Rn).
  exists l, f. cbn [fst snd]. rewrite (visited_bare h h1); [exact V|]. eapply renumber_bare, Rn.
Qed.

Theorem covered_sequence U d t F : outcome U d (Ok (Some t)) ->
  (forall n, In n d -> sentence_item n -> covered U (o_letters diacritic) n = true) ->
  conveys U (o_letters diacritic) d F -> stray F = [] -> NoDup (introduced F) ->
  exists l, nodes t l /\
    length (filter (introduces (snd t)) l) = length (introduced F) /\
    (forall k x, nth_error (filter (introduces (snd t)) l) k = Some x -> number (snd t) x = Some k) /\
    (forall x b, In x l -> refers (snd t) x b -> In b (filter (introduces (snd t)) l) /\ number (snd t) x = number (snd t) b).
Proof.
  intros O Co C St D. destruct (covered_nodes _ _ _ O Co) as [l N]. exists l. split; [exact N|]. eapply covered_numbers; eassumption.
Qed.
Theorem covered_ends U d t F s : outcome U d (Ok (Some t)) ->
  (forall n, In n d -> sentence_item n -> covered U (o_letters diacritic) n = true) ->
  conveys U (o_letters diacritic) d F -> stray F = [] -> NoDup (introduced F) ->
  (forall x, In (Binder x) (introduced F) -> In x (mentions F)) ->
  prints U (Some t) s -> exists body, s = (body ++ ".")%string.
Proof.
  intros O Co C St D M. destruct (covered_nodes _ _ _ O Co) as [l N]. eapply covered_period; eassumption.
Qed.

Theorem orderly_sequence U d t F : outcome U d (Ok (Some t)) ->
  (forall n, In n d -> sentence_item n -> well_ordered U (o_letters diacritic) n = true) ->
  conveys U (o_letters diacritic) d F -> NoDup (introduced F) ->
  exists l, nodes t l /\
    length (filter (introduces (snd t)) l) = length (introduced F) /\
    (forall k x, nth_error (filter (introduces (snd t)) l) k = Some x -> number (snd t) x = Some k) /\
    (forall x b, In x l -> refers (snd t) x b -> In b (filter (introduces (snd t)) l) /\ number (snd t) x = number (snd t) b).
Proof.
  intros O W C D. apply (covered_sequence U d t F O); [intros n I J; apply well_ordered_covered, W; assumption|exact C|eapply OrderlyEnd.orderly_stray; eassumption|exact D].
Qed.
Theorem orderly_ends U d t F s : outcome U d (Ok (Some t)) ->
  (forall n, In n d -> sentence_item n -> well_ordered U (o_letters diacritic) n = true) ->
  conveys U (o_letters diacritic) d F -> NoDup (introduced F) ->
  (forall x, In (Binder x) (introduced F) -> In x (mentions F)) ->
  prints U (Some t) s -> exists body, s = (body ++ ".")%string.
Proof.
  intros O W C D. apply (covered_ends U d t F s O); [intros n I J; apply well_ordered_covered, W; assumption|exact C|eapply OrderlyEnd.orderly_stray; eassumption|exact D].
Qed.

Lemma numbers_case : exists d t, parses ClauseWritten.written_text d /\ outcome ascii_unicode d (Ok (Some t)) /\
  prints ascii_unicode (Some t) (ClauseWritten.written_output ++ ".") /\
  (forall n, In n d -> sentence_item n -> covered ascii_unicode (o_letters diacritic) n = true) /\
  conveys ascii_unicode (o_letters diacritic) d ClauseWritten.written_meaning /\ stray ClauseWritten.written_meaning = [] /\
  introduced ClauseWritten.written_meaning = [Binder 1; Binder 5; Binder 6] /\ mentions ClauseWritten.written_meaning = [1; 5; 6; 1; 5; 6].
Proof.
  destruct ClauseWritten.written_case as (d & t & A & B & P & Co & C). exists d, t. repeat (split; [assumption|]). repeat split; reflexivity.
Qed.

(** A clause that an abstraction uses twice is shared. *)
Definition shared_text : string := "lu? mai? hoa/ hoa/ na fa^ tu poq/".
Lemma shared_period : exists d t s, parses shared_text d /\ outcome ascii_unicode d (Ok (Some t)) /\ prints ascii_unicode (Some t) s /\
  (forall n, In n d -> sentence_item n -> well_ordered ascii_unicode (o_letters diacritic) n = true) /\ scoped t /\
  forall body, s <> (body ++ ".")%string.
Proof.
  destruct (ordered_text shared_text "mai({[∀X1 : poq(X1)] fa(X1)}, {[∀X1 : poq(X1)] fa(X1)})") as (d & t & P & O & S & W); [vm_compute; reflexivity..|].
  exists d, t, "mai({[∀X1 : poq(X1)] fa(X1)}, {[∀X1 : poq(X1)] fa(X1)})". split; [exact P|]. split; [exact O|]. split; [exact S|]. split; [exact W|]. split; [exact (orderly_scoped _ _ W _ O)|].
  intros body E. apply (f_equal (fun s => list_ascii_of_string s)) in E.
  assert (A : forall b, list_ascii_of_string (b ++ ".") = list_ascii_of_string b ++ ["."%char]) by (induction b; cbn; congruence).
  rewrite A in E. apply (f_equal (@rev _)) in E. rewrite rev_app_distr in E. vm_compute in E. discriminate.
Qed.
