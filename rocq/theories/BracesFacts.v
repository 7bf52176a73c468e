(** The output of BracesString. *)

From Coq Require Import String List Bool Arith Lia.
From Verif Require Import Base PegSyntax Ast AstInd AstSorts VisitSpec Braces BracesSpec.
Import ListNotations.
Open Scope nat_scope.

Lemma join_concat l : join l = String.concat " " l.
Proof. induction l as [|x [|y l] IH]; [reflexivity|reflexivity|]. cbn [join String.concat] in *. rewrite IH. reflexivity. Qed.

Lemma open_pair c : c < 4 -> open_brace c = fst (bracket_pair c) /\ close_brace c = snd (bracket_pair c).
Proof. intro H. do 4 (destruct c as [|c]; [split; reflexivity|]). lia. Qed.

Lemma pair_mod d : bracket_pair (d mod 4) = bracket_pair d.
Proof. unfold bracket_pair. rewrite Nat.mod_mod by lia. reflexivity. Qed.

(** [shows f ts]: a way of printing that prints [ts], or nothing if it is left out. *)
Definition shows_fn (f : nat -> string) (ts : list string) : Prop :=
  forall depth, printed depth ts (f (depth mod 4)).
Definition shows (k : kid) (ts : list string) : Prop :=
  match k with
  | None => ts = []
  | Some f => shows_fn f ts
  end.

Lemma printed_kids (xs : list kid) tss : Forall2 shows xs tss -> forall depth,
  printed_all depth (List.concat tss) (map (fun f => f (depth mod 4)) (given xs)).
Proof.
  induction 1 as [|x ts xs tss H _ IH]; intro depth; cbn [List.concat]; [constructor|].
  destruct x as [f|]; cbn [shows given map] in *; [constructor; [apply H|apply IH]|].
  rewrite H. apply IH.
Qed.

Lemma shows_kids xs tss : Forall2 shows xs tss -> given xs <> [] ->
  shows_fn (fun c => brace_kids c xs) (List.concat tss).
Proof.
  intros H N depth. unfold brace_kids. destruct (Nat.ltb_spec 1 (List.length (given xs))) as [L|L].
  - assert (M : depth mod 4 < 4) by (apply Nat.mod_upper_bound; lia).
    destruct (open_pair _ M) as [-> ->]. rewrite pair_mod, join_concat.
    apply PGroup; [rewrite map_length; lia|]. assert (E : (depth mod 4 + 1) mod 4 = S depth mod 4).
    { rewrite Nat.add_mod_idemp_l by lia. f_equal. lia. }
    rewrite E. apply printed_kids. exact H.
  - pose proof (printed_kids xs tss H depth) as P.
    destruct (given xs) as [|f [|? ?]]; [congruence| |cbn in L; lia]. cbn [map join] in *.
    inversion P as [|? ts1 ? ts2 ? P1 P2]; subst. inversion P2; subst. rewrite app_nil_r. exact P1.
Qed.

Lemma given_nil_texts xs tss : Forall2 shows xs tss -> given xs = [] -> List.concat tss = [].
Proof.
  induction 1 as [|x ts xs tss H _ IH]; intro E; [reflexivity|]. destruct x; cbn [given shows List.concat] in *; [discriminate|].
  rewrite H. apply IH. exact E.
Qed.

(** ** Trees without empty parts *)

Definition node_shows (n : node) : Prop := shows (node_kid braces n) (texts n).
Definition word_shows (w : word) : Prop := shows_fn (fun c => braces_word c w) (wtexts w).

Lemma only_space_texts n : only_space n = true -> texts n = [].
Proof.
  revert n. fix IH 1. intros [] H; try discriminate. destruct w as [t s e [m|]]; cbn [texts olist]; [|reflexivity].
  apply IH. exact H.
Qed.

Lemma shows_opt o : onO node_shows o -> shows (node_kid_opt braces o) (olist texts o).
Proof. destruct o; cbn; auto. Qed.

Lemma shows_word_opt o : onO word_shows o -> shows (word_kid_opt braces_word o) (olist wtexts o).
Proof. destruct o; cbn; auto. Qed.

Lemma shows_map d : Forall node_shows d -> Forall2 shows (map (node_kid braces) d) (map texts d).
Proof. induction 1; cbn [map]; constructor; assumption. Qed.

Definition visible (n : node) : bool := negb (only_space n).

Lemma given_map d : existsb visible d = true -> given (map (node_kid braces) d) <> [].
Proof.
  induction d as [|x d IH]; cbn [existsb map]; [discriminate|]. unfold visible at 1, node_kid at 1.
  destruct (only_space x); cbn [negb orb given]; [exact IH|discriminate].
Qed.

Lemma shows_list d : Forall node_shows d -> existsb visible d = true -> shows (list_kid braces d) (flat_map texts d).
Proof.
  intros H N. cbn [list_kid shows]. rewrite flat_map_concat_map. apply shows_kids; [apply shows_map; exact H|].
  apply given_map. exact N.
Qed.

Lemma shape_visible l n : ~ In SSpace l -> among l n = true -> visible n = true.
Proof.
  intros N H. unfold visible. destruct n; try reflexivity. exfalso. apply N.
  unfold among in H. apply existsb_exists in H. destruct H as (s & Hs & E). cbn [shape_of] in E.
  destruct (shape_eq_dec s SSpace); [subst; exact Hs|discriminate].
Qed.

Lemma list_visible l p d : ~ In SSpace l -> nonempty d = true -> forallb (fun x => among l x && p x) d = true ->
  existsb visible d = true.
Proof.
  destruct d as [|x d]; [discriminate|]. cbn [forallb existsb]. intros N _ H.
  apply andb_true_iff in H. destruct H as [H _]. apply andb_true_iff in H. destruct H as [H _].
  rewrite (shape_visible l x N H). reflexivity.
Qed.

(** ** Sorted trees *)

Notation sorted := (sorted real_left real_right).
Notation sorted_word := (sorted_word real_left real_right).

Definition pshows (n : node) : Prop := sorted n = true -> shape_of n <> SText -> node_shows n.
Definition qshows (w : word) : Prop := sorted_word w = true -> word_shows w /\ onO node_shows (w_m w).

Definition no_text (l : list shape) : bool := if in_dec shape_eq_dec SText l then false else true.
Definition no_space (l : list shape) : bool := if in_dec shape_eq_dec SSpace l then false else true.

Lemma among_shape_in l n : among l n = true -> In (shape_of n) l.
Proof.
  unfold among. rewrite existsb_exists. intros (s & Hs & E). destruct (shape_eq_dec s (shape_of n)); [subst; exact Hs|discriminate].
Qed.

Lemma is_shows l n : no_text l = true -> pshows n -> among l n && sorted n = true -> node_shows n.
Proof.
  intros N P H. apply andb_true_iff in H. destruct H as [A S]. apply P; [exact S|]. intro E.
  apply among_shape_in in A. rewrite E in A. unfold no_text in N. destruct (in_dec _ _ _); [discriminate|contradiction].
Qed.

Lemma is_visible l n : no_space l = true -> among l n && sorted n = true -> only_space n = false.
Proof.
  intros N H. apply andb_true_iff in H. destruct H as [A _]. apply negb_true_iff. apply (shape_visible l); [|exact A].
  intro C. unfold no_space in N. destruct (in_dec _ _ _); [discriminate|contradiction].
Qed.

Lemma kid_visible l n : no_space l = true -> among l n && sorted n = true -> node_kid braces n = Some (fun c => braces c n).
Proof. intros N H. unfold node_kid. rewrite (is_visible l n N H). reflexivity. Qed.

Lemma opt_shows l o : no_text l = true -> onO pshows o -> on_opt (fun x => among l x && sorted x) o = true -> onO node_shows o.
Proof. destruct o; cbn; [|auto]. intros N P H. exact (is_shows l n N P H). Qed.

Lemma opt_word_shows o : onO qshows o -> on_opt sorted_word o = true -> onO word_shows o.
Proof. destruct o; cbn; [|auto]. intros P H. exact (proj1 (P H)). Qed.

Lemma list_shows l d : no_text l = true -> Forall pshows d -> forallb (fun x => among l x && sorted x) d = true -> Forall node_shows d.
Proof.
  intros N. induction 1 as [|x d P _ IH]; cbn [forallb]; [constructor|]. intro H. apply andb_true_iff in H.
  destruct H as [H1 H2]. constructor; [exact (is_shows l x N P H1)|auto].
Qed.

Lemma list_shows_kid l d : no_text l = true -> no_space l = true -> Forall pshows d -> nonempty d = true ->
  forallb (fun x => among l x && sorted x) d = true -> shows (list_kid braces d) (flat_map texts d).
Proof.
  intros N S P E H. apply shows_list; [exact (list_shows l d N P H)|]. apply (list_visible l sorted); [|exact E|exact H].
  intro C. unfold no_space in S. destruct (in_dec _ _ _); [discriminate|contradiction].
Qed.

Lemma shows_eq f ts ts' : shows_fn f ts -> ts = ts' -> shows_fn f ts'.
Proof. intros H <-. exact H. Qed.

Lemma visible_shows n : only_space n = false -> node_shows n -> shows_fn (fun c => braces c n) (texts n).
Proof. unfold node_shows, node_kid. intros ->. exact (fun H => H). Qed.

Lemma shows_not_space n : only_space n = false -> shows_fn (fun c => braces c n) (texts n) -> node_shows n.
Proof. unfold node_shows, node_kid. intros ->. exact (fun H => H). Qed.

Ltac split_sorted :=
  repeat match goal with
  | H : sorted _ = true |- _ => progress cbn [AstSorts.sorted] in H
  | H : (_ && _)%bool = true |- _ =>
      lazymatch type of H with
      | (among _ _ && _)%bool = true => fail
      | _ => apply andb_true_iff in H; destruct H
      end
  end.

Ltac one_kid :=
  match goal with
  | |- shows None _ => reflexivity
  | |- shows (node_kid braces ?n) _ => eapply is_shows; [|eassumption|eassumption]; reflexivity
  | |- shows (word_kid braces_word ?w) _ =>
      match goal with P : qshows w |- _ => refine (proj1 (P _)); assumption end
  | |- shows (word_kid_opt braces_word ?o) _ => apply shows_word_opt; apply opt_word_shows; assumption
  | |- shows (node_kid_opt braces ?o) _ => apply shows_opt; eapply opt_shows; [|eassumption|eassumption]; reflexivity
  | |- shows (list_kid braces ?o) _ => eapply list_shows_kid; [| |eassumption|eassumption|eassumption]; reflexivity
  end.

Ltac kids_shows :=
  eapply shows_eq; [apply shows_kids; [repeat (apply Forall2_cons; [one_kid|]); apply Forall2_nil|]|
                    cbn [List.concat]; rewrite ?app_nil_r; try reflexivity].

Ltac visible :=
  repeat match goal with
  | H : (among ?l ?n && sorted ?n)%bool = true |- context [node_kid braces ?n] =>
      rewrite (kid_visible l n eq_refl H)
  | |- context [word_kid_opt _ ?o] => is_var o; destruct o
  | |- context [list_kid_opt _ ?o] => is_var o; destruct o
  | |- context [node_kid_opt _ ?o] => is_var o; destruct o
  end; cbn; try discriminate.

Lemma sorted_shows : (forall n, pshows n) /\ (forall w, qshows w).
Proof.
  apply node_word_ind; intros; intro S; try intro NT; try (contradiction NT; reflexivity);
    try (apply shows_not_space; [reflexivity|]; cbn [braces texts]); split_sorted;
    try (kids_shows; visible; fail);
    try (match goal with P : qshows ?w |- shows_fn (fun c => braces_word c ?w) _ => exact (proj1 (P S)) end);
    try (match goal with
         | |- shows_fn (fun c => braces c ?p) _ =>
             apply visible_shows; [eapply is_visible; [|eassumption]|eapply is_shows; [|eassumption|eassumption]]; reflexivity
         end).
  - exact (list_shows_kid items d eq_refl eq_refl H H0 H1).
  - destruct ts as [l|]; cbn [list_kid_opt olist on_opt onO] in *; [split_sorted|]; kids_shows; visible.
  - exact (list_shows_kid terms_ ts eq_refl eq_refl H H0 H1).
  - destruct w as [t s e m]. destruct (H S) as [_ M]. cbn [w_m] in M. destruct m as [m|]; [exact M|reflexivity].
  - assert (L : no_text (real_left k (is_some to0)) = true /\ no_space (real_left k (is_some to0)) = true) by (destruct k, to0; split; reflexivity).
    assert (R : no_text (real_right k) = true /\ no_space (real_right k) = true) by (destruct k; split; reflexivity).
    destruct L as [L1 L2], R as [R1 R2].
    assert (Sl : node_shows l) by (apply (is_shows (real_left k (is_some to0))); assumption).
    assert (Sr : node_shows r) by (apply (is_shows (real_right k)); assumption).
    assert (Sw : word_shows ru) by (apply H1; assumption).
    assert (T0 : onO word_shows to0) by (apply opt_word_shows; assumption).
    assert (T1 : onO word_shows to1) by (apply opt_word_shows; assumption).
    destruct to0 as [t0|].
    + eapply shows_eq; [apply shows_kids; [repeat (apply Forall2_cons)|]|].
      * cbn [word_kid_opt]. exact T0.
      * exact Sw.
      * exact Sl.
      * apply shows_word_opt. exact T1.
      * exact Sr.
      * apply Forall2_nil.
      * cbn. discriminate.
      * cbn [List.concat]. rewrite app_nil_r. reflexivity.
    + eapply shows_eq; [apply shows_kids; [repeat (apply Forall2_cons)|]|].
      * exact Sl.
      * exact Sw.
      * exact Sr.
      * apply Forall2_nil.
      * rewrite (kid_visible _ l L2) by assumption. cbn. discriminate.
      * cbn [List.concat]. rewrite app_nil_r. reflexivity.
  - discriminate S.
  - assert (M : onO node_shows m) by (eapply opt_shows; [|eassumption|exact S]; reflexivity).
    split; [|exact M]. unfold word_shows. cbn [braces_word wtexts].
    eapply shows_eq; [apply shows_kids; [repeat (apply Forall2_cons)|]|].
    + cbn [text_kid shows]. intro depth. apply PText.
    + apply shows_opt. exact M.
    + apply Forall2_nil.
    + discriminate.
    + cbn [List.concat app]. rewrite app_nil_r. reflexivity.
Qed.

(** ** Texts of a tree *)

Lemma says_app a b l1 l2 : says_all a l1 -> says_all b l2 -> says_all (a ++ b) (l1 ++ l2).
Proof.
  revert l1. induction a as [|n a IH]; intros l1 H1 H2; inversion H1; subst; cbn [app]; [exact H2|].
  rewrite <- app_assoc. constructor; auto.
Qed.

Lemma says_list d : Forall (fun n => says n (texts n)) d -> says_all d (flat_map texts d).
Proof. induction 1; cbn [flat_map]; constructor; assumption. Qed.

Lemma says_one n l : says n l -> says_all [n] l.
Proof. intro H. rewrite <- (app_nil_r l). constructor; [exact H|constructor]. Qed.

Lemma says_list_node n d : (forall w, n <> NWord w) -> (forall w, n <> NSpace w) -> kids n = d ->
  Forall (fun n => says n (texts n)) d -> says_all [n] (flat_map texts d).
Proof. intros N N' E H. apply says_one. apply SayOther; [exact N|exact N'|]. rewrite E. apply says_list. exact H. Qed.

Lemma says_maybe o : onO (fun n => says n (texts n)) o -> says_all (maybe o) (olist texts o).
Proof. destruct o; cbn; intro H; [apply says_one; exact H|constructor]. Qed.

Lemma says_maybe_word o : onO (fun w => says (NWord w) (wtexts w)) o -> says_all (maybe_word o) (olist wtexts o).
Proof. destruct o; cbn; intro H; [apply says_one; exact H|constructor]. Qed.

Lemma says_cons n a l1 l2 : says_all [n] l1 -> says_all a l2 -> says_all (n :: a) (l1 ++ l2).
Proof. intros H1 H2. exact (says_app [n] a l1 l2 H1 H2). Qed.

Ltac say_step :=
  first
    [ apply says_maybe; assumption
    | apply says_maybe_word; assumption
    | apply says_list; assumption
    | apply says_one; assumption
    | apply says_list_node; [discriminate|discriminate|reflexivity|assumption]
    | apply says_cons
    | apply says_app ].

Definition qsays (w : word) : Prop := says (NWord w) (wtexts w).

Lemma says_raw to0 to1 ru l r :
  onO qsays to0 -> onO qsays to1 -> qsays ru -> says l (texts l) -> says r (texts r) ->
  says (NCoP CRaw to0 to1 ru l r) (texts (NCoP CRaw to0 to1 ru l r)).
Proof.
  unfold qsays. intros. apply SayOther; [discriminate|discriminate|].
  destruct to0; cbn [kids texts app onO] in *; repeat say_step.
Qed.

Definition msays (w : word) : Prop := says_all (maybe (w_m w)) (olist texts (w_m w)).

Lemma msays_word w : msays w -> qsays w.
Proof. destruct w as [t s e m]. intro H. unfold qsays. cbn [wtexts]. apply (SayWord (Wd t s e m)). exact H. Qed.

Lemma msays_opt o : onO msays o -> onO qsays o.
Proof. destruct o; cbn; [apply msays_word|auto]. Qed.

Lemma says_texts : (forall n, says n (texts n)) /\ (forall w, msays w).
Proof.
  apply node_word_ind; intros;
    repeat match goal with
    | H : onO msays _ |- _ => apply msays_opt in H; unfold qsays in H
    | H : msays ?w |- says (NSpace ?w) _ => fail 1
    | H : msays _ |- _ => apply msays_word in H; unfold qsays in H
    end; cbn [texts wtexts];
    try (apply SayOther; [discriminate|discriminate|]; cbn [kids app]; repeat say_step; fail).
  - apply SayOther; [discriminate|discriminate|]. cbn [kids app]. repeat say_step.
    destruct ts; cbn [olist onO] in *; repeat say_step. apply says_one, SayOther; [discriminate|discriminate|constructor].
  - destruct w as [t s e m]. apply SaySpace. exact H.
  - destruct k; try (apply SayOther; [discriminate|discriminate|]; cbn [kids]; apply says_one); apply says_raw; assumption.
  - assert (R : says (NLU LRaw lu st) (wtexts lu ++ texts st)).
    { apply SayOther; [discriminate|discriminate|]. cbn [kids]. repeat say_step. }
    destruct k; try (apply SayOther; [discriminate|discriminate|]; cbn [kids]; apply says_one); exact R.
  - assumption.
  - unfold msays. cbn [w_m]. apply says_maybe. assumption.
Qed.

Lemma says_det :
  (forall n l, says n l -> forall l', says n l' -> l = l') /\
  (forall ns l, says_all ns l -> forall l', says_all ns l' -> l = l').
Proof.
  apply says_mut.
  - intros w l _ IH l' H. inversion H as [? l0 K| |? ? N N' K]; subst; [f_equal; apply IH; exact K|].
    contradiction (N w). reflexivity.
  - intros w l _ IH l' H. inversion H as [|? l0 K|? ? N N' K]; subst; [apply IH; exact K|].
    contradiction (N' w). reflexivity.
  - intros n l N N1 _ IH l' H. inversion H as [? l0 K|? l0 K|? ? N' N1' K]; subst;
      [contradiction (N w); reflexivity|contradiction (N1 w); reflexivity|].
    apply IH. exact K.
  - intros l' H. inversion H. reflexivity.
  - intros n l a b _ IH1 _ IH2 l' H. inversion H; subst. f_equal; [apply IH1|apply IH2]; assumption.
Qed.

Lemma says_spec n l : says n l <-> l = texts n.
Proof.
  split; [intro H; exact (proj1 says_det _ _ H _ (proj1 says_texts n))|]. intros ->. apply says_texts.
Qed.
