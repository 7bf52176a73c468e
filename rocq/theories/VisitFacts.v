(** Visit is the traversal of VisitSpec.v, for every visitor. *)

From Coq Require Import String List.
From Verif Require Import Base PegSyntax Tone Ast AstInd Visit VisitSpec.
Import ListNotations.

Section Traverse.

Context {V S : Type}.
Variable step : V -> option node -> S -> option V * S.
Notation call := (call step).
Notation visit := (visit step).
Notation visit_word := (visit_word step).
Notation traverse := (traverse step).
Notation traverse_all := (traverse_all step).

Lemma call_traverse n (f : V -> S -> S) :
  (forall v s, traverse_all v (kids n) s (f v s)) -> forall v s, traverse v n s (call n f v s).
Proof.
  intros H v s. unfold Visit.call. destruct (step v (Some n) s) as [[v1|] s1] eqn:E; [|apply TPrune; exact E].
  destruct (step v1 None (f v1 s1)) as [o s3] eqn:E3. eapply TDown; [exact E|apply H|exact E3].
Qed.

Lemma all_traverse l : Forall (fun n => forall v s, traverse v n s (visit n v s)) l ->
  forall v s, traverse_all v l s (all visit v l s).
Proof.
  induction 1 as [|n l H _ IH]; intros v s; cbn [all]; [constructor|]. econstructor; [apply H|apply IH].
Qed.

Lemma traverse_app v a b s s1 s2 : traverse_all v a s s1 -> traverse_all v b s1 s2 -> traverse_all v (a ++ b) s s2.
Proof.
  revert s. induction a as [|x a IH]; intros s H1 H2; inversion H1; subst; cbn [app]; [exact H2|].
  econstructor; eauto.
Qed.

Ltac walk :=
  repeat match goal with
  | |- context [match ?o with None => _ | Some _ => _ end] => is_var o; destruct o
  | H : onO _ (Some _) |- _ => cbn [onO] in H
  | H : onO _ None |- _ => clear H
  end;
  cbn [maybe maybe_word app kids];
  repeat first
    [ apply TNil
    | apply all_traverse; assumption
    | eapply TCons; [first [solve [eauto] | apply call_traverse; intros; cbn [kids]; first [apply all_traverse; assumption | apply TNil]]|]
    ].

Lemma visit_traverses :
  (forall n v s, traverse v n s (visit n v s)) /\
  (forall w v s, traverse v (NWord w) s (visit_word w v s)).
Proof.
  apply node_word_ind; intros; cbn [Visit.visit Visit.visit_word];
    try (destruct k; apply call_traverse; intros; cbn [kids]; try (eapply TCons; [apply call_traverse; intros|apply TNil]); walk; fail);
    try (apply call_traverse; intros; cbn [kids w_m]; walk; fail).
  auto.
Qed.

Lemma traverse_det_all :
  (forall v n s s1, traverse v n s s1 -> forall s2, traverse v n s s2 -> s1 = s2) /\
  (forall v l s s1, traverse_all v l s s1 -> forall s2, traverse_all v l s s2 -> s1 = s2).
Proof.
  apply traverse_mut.
  - intros v n s s1 E s2 H. inversion H; subst; congruence.
  - intros v n s v1 s1 s2 o s3 E H IH E3 s' H'. inversion H' as [|? ? ? v1' s1' s2' o' s3' E' K' E3']; subst; [congruence|].
    rewrite E in E'. injection E' as <- <-. apply IH in K'. subst s2'. congruence.
  - intros v s s2 H. inversion H. reflexivity.
  - intros v n l s s1 s2 H1 IH1 H2 IH2 s' H'. inversion H' as [|? ? ? ? s1' ? K1 K2]; subst.
    apply IH1 in K1. subst s1'. apply IH2. exact K2.
Qed.

Lemma visit_is_traverse n v s s' : visit n v s = s' <-> traverse v n s s'.
Proof.
  split.
  - intros <-. apply visit_traverses.
  - intro H. exact (proj1 traverse_det_all _ _ _ _ (proj1 visit_traverses n v s) _ H).
Qed.

End Traverse.

(** ** Showing every node *)

Lemma shown_traverse :
  (forall n l, shown n l -> forall s, traverse (func_visitor record) tt n s (s ++ l)) /\
  (forall ns l, shown_all ns l -> forall s, traverse_all (func_visitor record) tt ns s (s ++ l)).
Proof.
  apply shown_mut.
  - intros n l _ IH s. eapply TDown; [reflexivity|apply IH|]. unfold func_visitor, record.
    rewrite <- !app_assoc. reflexivity.
  - intro s. rewrite app_nil_r. constructor.
  - intros n l a b _ IH1 _ IH2 s. eapply TCons; [apply IH1|]. rewrite app_assoc. apply IH2.
Qed.

Lemma traverse_shown :
  (forall v n s s', traverse (func_visitor record) v n s s' -> exists l, shown n l /\ s' = s ++ l) /\
  (forall v ns s s', traverse_all (func_visitor record) v ns s s' -> exists l, shown_all ns l /\ s' = s ++ l).
Proof.
  apply traverse_mut.
  - intros v n s s1 E. discriminate E.
  - intros v n s v1 s1 s2 o s3 E _ (l & H & ->) E3. unfold func_visitor, record in E, E3.
    injection E as <- <-. injection E3 as <- <-. exists (Some n :: l ++ [None]). split; [constructor; exact H|].
    rewrite <- !app_assoc. reflexivity.
  - intros v s. exists []. split; [constructor|rewrite app_nil_r; reflexivity].
  - intros v n l s s1 s2 _ (a & Ha & ->) _ (b & Hb & ->). exists (a ++ b). split; [constructor; assumption|].
    apply app_assoc_reverse.
Qed.

Lemma visit_shown n l : visit (func_visitor record) n tt [] = l <-> shown n l.
Proof.
  rewrite visit_is_traverse. split.
  - intro H. destruct (proj1 traverse_shown _ _ _ _ H) as (l' & H' & ->). exact H'.
  - intro H. exact (proj1 shown_traverse _ _ H []).
Qed.

(** ** Words *)

Lemma reads_app a b l1 l2 : reads_all a l1 -> reads_all b l2 -> reads_all (a ++ b) (l1 ++ l2).
Proof.
  revert l1. induction a as [|n a IH]; intros l1 H1 H2; inversion H1; subst; cbn [app]; [exact H2|].
  rewrite <- app_assoc. constructor; auto.
Qed.

Lemma reads_list d : Forall (fun n => reads n (words n)) d -> reads_all d (flat_map words d).
Proof. induction 1; cbn [flat_map]; constructor; assumption. Qed.

Lemma reads_one n l : reads n l -> reads_all [n] l.
Proof. intro H. rewrite <- (app_nil_r l). constructor; [exact H|constructor]. Qed.

Lemma reads_list_node n d : (forall w, n <> NWord w) -> kids n = d -> Forall (fun n => reads n (words n)) d ->
  reads_all [n] (flat_map words d).
Proof. intros N E H. apply reads_one. apply ReadOther; [exact N|]. rewrite E. apply reads_list. exact H. Qed.

Lemma reads_maybe o : onO (fun n => reads n (words n)) o -> reads_all (maybe o) (olist words o).
Proof. destruct o; cbn; intro H; [apply reads_one; exact H|constructor]. Qed.

Lemma reads_maybe_word o : onO (fun w => reads (NWord w) (wwords w)) o -> reads_all (maybe_word o) (olist wwords o).
Proof. destruct o; cbn; intro H; [apply reads_one; exact H|constructor]. Qed.

Lemma reads_cons n a l1 l2 : reads_all [n] l1 -> reads_all a l2 -> reads_all (n :: a) (l1 ++ l2).
Proof. intros H1 H2. exact (reads_app [n] a l1 l2 H1 H2). Qed.

Ltac read_step :=
  first
    [ apply reads_maybe; assumption
    | apply reads_maybe_word; assumption
    | apply reads_list; assumption
    | apply reads_one; assumption
    | apply reads_list_node; [discriminate|reflexivity|assumption]
    | apply reads_cons
    | apply reads_app ].

Lemma reads_raw to0 to1 ru l r :
  onO (fun w => reads (NWord w) (wwords w)) to0 -> onO (fun w => reads (NWord w) (wwords w)) to1 ->
  reads (NWord ru) (wwords ru) -> reads l (words l) -> reads r (words r) ->
  reads (NCoP CRaw to0 to1 ru l r) (words (NCoP CRaw to0 to1 ru l r)).
Proof.
  intros. apply ReadOther; [discriminate|]. destruct to0; cbn [kids words app onO] in *; repeat read_step.
Qed.

Lemma reads_words : (forall n, reads n (words n)) /\ (forall w, reads (NWord w) (wwords w)).
Proof.
  apply node_word_ind; intros; cbn [words wwords];
    try (apply ReadOther; [discriminate|]; cbn [kids app]; repeat read_step; fail).
  - apply ReadOther; [discriminate|]. cbn [kids app]. repeat read_step.
    destruct ts; cbn [olist onO] in *; repeat read_step. apply reads_one, ReadOther; [discriminate|constructor].
  - destruct k; try (apply ReadOther; [discriminate|]; cbn [kids]; apply reads_one); apply reads_raw; assumption.
  - assert (R : reads (NLU LRaw lu st) (wwords lu ++ words st)).
    { apply ReadOther; [discriminate|]. cbn [kids]. repeat read_step. }
    destruct k; try (apply ReadOther; [discriminate|]; cbn [kids]; apply reads_one); exact R.
  - assumption.
  - apply ReadWord. cbn [kids w_m]. apply reads_maybe. assumption.
Qed.

Lemma reads_det :
  (forall n l, reads n l -> forall l', reads n l' -> l = l') /\
  (forall ns l, reads_all ns l -> forall l', reads_all ns l' -> l = l').
Proof.
  apply reads_mut.
  - intros w l _ IH l' H. inversion H as [? l0 K|? ? N K]; subst; [f_equal; apply IH; exact K|].
    contradiction (N w). reflexivity.
  - intros n l N _ IH l' H. inversion H as [? l0 K|? ? N' K]; subst; [contradiction (N w); reflexivity|].
    apply IH. exact K.
  - intros l' H. inversion H. reflexivity.
  - intros n l a b _ IH1 _ IH2 l' H. inversion H; subst. f_equal; [apply IH1|apply IH2]; assumption.
Qed.

Lemma reads_spec n l : reads n l <-> l = words n.
Proof.
  split; [intro H; exact (proj1 reads_det _ _ H _ (proj1 reads_words n))|]. intros ->. apply reads_words.
Qed.

Lemma shown_reads :
  (forall n l, shown n l -> reads n (flat_map word_of l)) /\
  (forall ns l, shown_all ns l -> reads_all ns (flat_map word_of l)).
Proof.
  apply shown_mut.
  - intros n l _ IH. cbn [flat_map]. rewrite flat_map_app. cbn [flat_map word_of app]. rewrite app_nil_r.
    destruct n; try (cbn [word_of app]; apply ReadOther; [discriminate|exact IH]).
    cbn [word_of app]. apply ReadWord. exact IH.
  - constructor.
  - intros n l a b _ IH1 _ IH2. rewrite flat_map_app. constructor; assumption.
Qed.

Lemma visit_words n : flat_map word_of (visit (func_visitor record) n tt []) = words n.
Proof. apply reads_spec. apply (proj1 shown_reads). apply visit_shown. reflexivity. Qed.

(** ** ToASCII *)

Definition put (h : store) (w : word) : store := assign h (w_t w) (to_ascii (h (w_t w))).

Definition put_step : unit -> option node -> store -> option unit * store :=
  func_visitor (fun n h => match n with Some (NWord w) => assign h (w_t w) (to_ascii (h (w_t w))) | _ => h end).

Lemma shown_puts :
  (forall n l, shown n l -> forall s, traverse put_step tt n s (fold_left put (flat_map word_of l) s)) /\
  (forall ns l, shown_all ns l -> forall s, traverse_all put_step tt ns s (fold_left put (flat_map word_of l) s)).
Proof.
  apply shown_mut.
  - intros n l _ IH s. cbn [flat_map]. rewrite flat_map_app. cbn [flat_map word_of app]. rewrite app_nil_r, fold_left_app.
    eapply TDown; [reflexivity|apply IH|]. unfold put_step, func_visitor. f_equal. destruct n; reflexivity.
  - intro s. constructor.
  - intros n l a b _ IH1 _ IH2 s. rewrite flat_map_app, fold_left_app. eapply TCons; [apply IH1|apply IH2].
Qed.

Lemma run_spec n h : to_ascii_run n h = fold_left put (words n) h.
Proof.
  unfold to_ascii_run. apply visit_is_traverse. rewrite <- (visit_words n).
  exact (proj1 shown_puts n _ (proj1 (visit_shown n _) eq_refl) h).
Qed.

Lemma puts_once l h a : NoDup (map w_t l) ->
  (In a (map w_t l) -> fold_left put l h a = to_ascii (h a)) /\ (~ In a (map w_t l) -> fold_left put l h a = h a).
Proof.
  revert h. induction l as [|w l IH]; intros h D; cbn [map fold_left In].
  - split; [contradiction|reflexivity].
  - inversion D as [|? ? N D']; subst. destruct (IH (put h w) D') as [IH1 IH2]. split.
    + intros [<-|I].
      * rewrite (IH2 N). unfold put, assign. rewrite String.eqb_refl. reflexivity.
      * rewrite (IH1 I). unfold put, assign. destruct (String.eqb_spec a (w_t w)) as [->|_]; [contradiction|reflexivity].
    + intro A. rewrite IH2 by tauto. unfold put, assign. destruct (String.eqb_spec a (w_t w)) as [->|_]; [tauto|reflexivity].
Qed.

Lemma retext_eq f n : retext f n =
  match n with
  | NText ld d => NText (option_map (retext f) ld) (map (retext f) d)
  | NDiscourse d => NDiscourse (map (retext f) d)
  | NSentence je st da => NSentence (option_map (retext_word f) je) (retext f st) (option_map (retext_word f) da)
  | NPrenex ts bi => NPrenex (map (retext f) ts) (retext_word f bi)
  | NPrenexStmt p st => NPrenexStmt (retext f p) (retext f st)
  | NPredication p ts na => NPredication (retext f p) (option_map (map (retext f)) ts) (option_map (retext_word f) na)
  | NPrefixed mu p => NPrefixed (retext_word f mu) (retext f p)
  | NSerial l r => NSerial (retext f l) (retext f r)
  | NWordPredicate w => NWordPredicate (retext_word f w)
  | NMi mi ga p => NMi (retext_word f mi) (option_map (retext_word f) ga) (retext f p)
  | NPo po ga a => NPo (retext_word f po) (option_map (retext_word f) ga) (retext f a)
  | NMo mo teo d => NMo (retext_word f mo) (retext_word f teo) (map (retext f) d)
  | NLinked go a => NLinked (retext_word f go) (retext f a)
  | NTerms ts => NTerms (map (retext f) ts)
  | NPredArg fo q p rel => NPredArg (option_map (retext_word f) fo) (option_map (retext_word f) q) (retext f p) (option_map (retext f) rel)
  | NPredRel p => NPredRel (retext f p)
  | NAdverb p => NAdverb (retext f p)
  | NPrep p a => NPrep (retext f p) (retext f a)
  | NPredContent p => NPredContent (retext f p)
  | NParen kio ki d => NParen (retext_word f kio) (retext_word f ki) (map (retext f) d)
  | NIncidental ju st => NIncidental (retext_word f ju) (retext f st)
  | NVocative hu a => NVocative (retext_word f hu) (retext f a)
  | NInterjection w => NInterjection (retext_word f w)
  | NSpace w => NSpace (retext_word f w)
  | NCoP k None to1 ru l r => NCoP k None to1 (retext_word f ru) (retext f l) (retext f r)
  | NCoP k (Some t) to1 ru l r =>
      NCoP k (Some (retext_word f t)) (option_map (retext_word f) to1) (retext_word f ru) (retext f l) (retext f r)
  | NLU k lu st => NLU k (retext_word f lu) (retext f st)
  | NWord w => NWord (retext_word f w)
  end.
Proof. destruct n; try reflexivity. Qed.

Lemma retext_word_eq f t s e m : retext_word f (Wd t s e m) = Wd (f t) s e (option_map (retext f) m).
Proof. reflexivity. Qed.

Section Retext.
Variables f g : string -> string.
Definition agree (l : list word) : Prop := Forall (fun w => f (w_t w) = g (w_t w)) l.
Definition pre (n : node) : Prop := agree (words n) -> retext f n = retext g n.
Definition qre (w : word) : Prop := agree (wwords w) -> retext_word f w = retext_word g w.

Lemma agree_app a b : agree (a ++ b) -> agree a /\ agree b.
Proof. apply Forall_app. Qed.

Lemma agree_list d : Forall pre d -> agree (flat_map words d) -> map (retext f) d = map (retext g) d.
Proof.
  induction 1 as [|n d H _ IH]; intro A; [reflexivity|]. cbn [flat_map] in A. apply Forall_app in A. destruct A as [A1 A2].
  cbn [map]. rewrite (H A1), (IH A2). reflexivity.
Qed.

Lemma agree_opt o : onO pre o -> agree (olist words o) -> option_map (retext f) o = option_map (retext g) o.
Proof. destruct o as [n|]; [|reflexivity]. intros H A. cbn. rewrite (H A). reflexivity. Qed.

Lemma agree_word o : onO qre o -> agree (olist wwords o) -> option_map (retext_word f) o = option_map (retext_word g) o.
Proof. destruct o as [n|]; [|reflexivity]. intros H A. cbn. rewrite (H A). reflexivity. Qed.

Lemma agree_lists o : onO (Forall pre) o -> agree (olist (flat_map words) o) ->
  option_map (map (retext f)) o = option_map (map (retext g)) o.
Proof. destruct o as [n|]; [|reflexivity]. intros H A. cbn. rewrite (agree_list n H A). reflexivity. Qed.

Lemma retext_agree : (forall n, pre n) /\ (forall w, qre w).
Proof.
  apply node_word_ind; intros; intro A; try (destruct to0; cbn [onO] in *); cbn [words wwords] in A;
    try match goal with |- retext_word _ _ = _ => inversion A as [|? ? A0 A1]; subst; cbn [w_t] in A0; change (agree (olist words m)) in A1; clear A end;
    repeat match goal with H : agree (_ ++ _) |- _ => apply agree_app in H; destruct H end;
    repeat match goal with
    | H : pre ?n, A : agree (words ?n) |- _ => specialize (H A); clear A
    | H : qre ?w, A : agree (wwords ?w) |- _ => specialize (H A); clear A
    | H : Forall pre ?d, A : agree (flat_map words ?d) |- _ => apply (fun H => agree_list d H A) in H; clear A
    | H : onO pre ?o, A : agree (olist words ?o) |- _ => apply (fun H => agree_opt o H A) in H; clear A
    | H : onO qre ?o, A : agree (olist wwords ?o) |- _ => apply (fun H => agree_word o H A) in H; clear A
    | H : onO (Forall pre) ?o, A : agree (olist (flat_map words) ?o) |- _ => apply (fun H => agree_lists o H A) in H; clear A
    end;
    try match goal with |- retext f ?n = retext g ?n => rewrite (retext_eq f n), (retext_eq g n) end; try congruence;
    rewrite !retext_word_eq; congruence.
Qed.
End Retext.

Lemma retext_retext f g :
  (forall n, retext f (retext g n) = retext (fun a => f (g a)) n) /\
  (forall w, retext_word f (retext_word g w) = retext_word (fun a => f (g a)) w).
Proof.
  assert (L : forall d, Forall (fun n => retext f (retext g n) = retext (fun a => f (g a)) n) d ->
    map (retext f) (map (retext g) d) = map (retext (fun a => f (g a))) d).
  { intros d H. rewrite map_map. apply map_ext_Forall. exact H. }
  apply (node_word_ind (fun n => retext f (retext g n) = retext (fun a => f (g a)) n)
    (fun w => retext_word f (retext_word g w) = retext_word (fun a => f (g a)) w)); intros;
    try destruct to0; repeat match goal with o : option _ |- _ => destruct o end; cbn [onO] in *;
    try match goal with |- retext f (retext g ?n) = retext ?h ?n => rewrite (retext_eq g n), (retext_eq h n); rewrite (retext_eq f) end;
    cbn [option_map];
    repeat match goal with H : Forall _ ?d |- _ => apply L in H end; try congruence; rewrite !retext_word_eq; cbn [option_map]; congruence.
Qed.

Lemma to_ascii_tree n h : NoDup (map w_t (words n)) ->
  retext (to_ascii_run n h) n = retext to_ascii (retext h n) /\
  (forall a, ~ In a (map w_t (words n)) -> to_ascii_run n h a = h a).
Proof.
  intro D. rewrite run_spec. split; [|intros a A; apply puts_once; assumption].
  rewrite (proj1 (retext_retext to_ascii h)). apply retext_agree. apply Forall_forall. intros w W.
  apply puts_once; [exact D|]. apply in_map. exact W.
Qed.

(** ** Which nodes are shown *)

Lemma shown_below :
  (forall n l, shown n l -> forall m, In (Some m) l <-> below m n) /\
  (forall ns l, shown_all ns l -> forall m, In (Some m) l <-> exists k, In k ns /\ below m k).
Proof.
  apply shown_mut.
  - intros n l _ IH m. cbn [In]. rewrite in_app_iff, IH. cbn [In]. split.
    + intros [H|[(k & Hk & H)|[H|[]]]]; [injection H as ->; constructor| |discriminate H].
      exact (WKid m k n Hk H).
    + intro H. inversion H; subst; [left; reflexivity|right; left; eauto].
  - intro m. cbn. split; [intros []|intros (k & [] & _)].
  - intros n l a b _ IH1 _ IH2 m. rewrite in_app_iff, IH1, IH2. cbn [In]. split.
    + intros [H|(k & Hk & H)]; eauto.
    + intros (k & [->|Hk] & H); eauto.
Qed.

Lemma visit_below n m : In (Some m) (visit (func_visitor record) n tt []) <-> below m n.
Proof. apply (proj1 shown_below). apply visit_shown. reflexivity. Qed.

Lemma shown_balanced :
  (forall n l, shown n l -> nodes l = nils l) /\ (forall ns l, shown_all ns l -> nodes l = nils l).
Proof.
  apply shown_mut; unfold nodes, nils.
  - intros n l _ IH. cbn [filter length]. rewrite !filter_app, !app_length. cbn. rewrite IH, PeanoNat.Nat.add_0_r, PeanoNat.Nat.add_1_r.
    reflexivity.
  - reflexivity.
  - intros n l a b _ IH1 _ IH2. rewrite !filter_app, !app_length, IH1, IH2. reflexivity.
Qed.

Lemma visit_complete n : let l := visit (func_visitor record) n tt [] in
  nodes l = nils l /\ forall m, In (Some m) l <-> below m n.
Proof.
  cbv zeta. split; [apply (proj1 shown_balanced n), visit_shown; reflexivity|]. intro m. apply visit_below.
Qed.
