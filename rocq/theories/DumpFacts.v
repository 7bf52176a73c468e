(** The AST shown by main.go determines the tree up to positions and modifiers: C47. *)

From Coq Require Import String Ascii NArith List Bool Arith Lia.
From Verif Require Import Base PegSyntax Ast AstInd AstSorts VisitSpec App Pretty MainSpec PrettyFacts.
Import ListNotations.
Open Scope string_scope.
Open Scope list_scope.

(** ** Modifiers and positions are not shown *)

Lemma opt_bare o : opt_word (option_map bare_word o) = opt_word o.
Proof. destruct o; reflexivity. Qed.
Lemma wv_bare w : word_value (bare_word w) = word_value w.
Proof. reflexivity. Qed.
Lemma map_bare l : Forall (fun n => node_value (bare n) = node_value n) l -> map node_value (map bare l) = map node_value l.
Proof. induction 1 as [|x l H _ IH]; cbn [map]; congruence. Qed.

Lemma value_bare n : node_value (bare n) = node_value n.
Proof.
  induction n using node_ind2 with (Q := fun _ => True); cbn [bare node_value onO] in *;
    rewrite ?opt_bare, ?wv_bare, ?map_bare by assumption; try congruence; trivial.
  all: match goal with o : option _ |- _ => match goal with |- context [match o with _ => _ end] => destruct o; cbn [onO] in *; rewrite ?map_bare by assumption end end; congruence.
Qed.

(** ** Everything else is *)

Ltac splits := repeat match goal with H : _ && _ = true |- _ => apply andb_prop in H; destruct H end.

Section Lines.

Definition line_word (w : word) : Prop := no_char nl (w_t w).
Definition lines (n : node) : Prop := forall w, In w (words n) -> line_word w.
Lemma self_in w : In w (wwords w).
Proof. destruct w. left. reflexivity. Qed.

Lemma quoted_line t : no_char nl t -> no_char nl (quote_char ++ t ++ quote_char)%string.
Proof. intros H. rewrite !no_char_app. repeat split; try assumption; intros [E|[]]; discriminate E. Qed.
Lemma wv_legible w : line_word w -> legible (word_value w).
Proof. intros H. split; [apply quoted_line, H|]. rewrite !last_app. left. reflexivity. Qed.
Lemma ov_legible o : (forall w, o = Some w -> line_word w) -> legible (opt_word o).
Proof. destruct o as [w|]; intros H; [apply wv_legible, H; reflexivity|exact I]. Qed.
Lemma list_legible l : Forall (fun n => legible (node_value n)) l -> legible (GList (map node_value l)).
Proof. induction 1 as [|x l H _ IH]; [exact I|]. cbn [map]. split; assumption. Qed.

Definition plain_str (s : string) : bool := forallb (fun c => negb (Ascii.eqb c nl) && negb (Ascii.eqb c ":"%char)) (list_ascii_of_string s).
Lemma plain_no s : plain_str s = true -> no_char nl s /\ no_char ":"%char s.
Proof.
  unfold plain_str. rewrite forallb_forall. intros H. split; intros I; apply H in I; apply andb_prop in I; destruct I as [A B]; [clear B; rewrite Ascii.eqb_refl in A; discriminate|].
  rewrite Ascii.eqb_refl in B. discriminate.
Qed.
Lemma struct_legible name fs : plain_str name = true -> fs <> [] -> Forall (fun f => plain_str (fst f) = true /\ legible (snd f)) fs -> legible (GStruct name fs).
Proof.
  intros N F H. cbn [legible]. split; [apply plain_no, N|]. split; [exact F|]. clear F. induction H as [|[f x] fs [A B] _ IH]; [exact I|]. cbn [fst snd] in *.
  destruct (plain_no f A). auto.
Qed.
Lemma made_legible a t b : plain_str a = true -> no_char nl t -> plain_str b = true -> In (last_of b """"%char) [""""%char; ")"%char] ->
  legible (GMade (a ++ quote_char ++ t ++ quote_char ++ b)%string).
Proof.
  intros A T B L. split; [|rewrite !last_app; exact L]. rewrite !no_char_app. destruct (plain_no a A), (plain_no b B). repeat split; try assumption; intros [E|[]]; discriminate E.
Qed.

Lemma on_opt_forall {A} (f : A -> bool) o : on_opt f o = true -> forall x, o = Some x -> f x = true.
Proof. intros H x ->. exact H. Qed.

Variable lefts : copkind -> bool -> list shape.
Variable rights : copkind -> list shape.
Notation sorted := (sorted lefts rights).

Lemma legible_all (f : node -> bool) l : Forall (fun n => sorted n = true -> lines n -> legible (node_value n)) l ->
  forallb (fun x => f x && sorted x) l = true -> (forall w, In w (flat_map words l) -> line_word w) -> legible (GList (map node_value l)).
Proof.
  intros H. induction H as [|x l H _ IH]; [intros; exact I|]. cbn [forallb map flat_map]. intros S L. splits. split.
  - apply H; [assumption|]. intros w W. apply L, in_app_iff. auto.
  - apply IH; [assumption|]. intros w W. apply L, in_app_iff. auto.
Qed.

Lemma legible_sorted n : sorted n = true -> lines n -> legible (node_value n).
Proof.
  induction n using node_ind2 with (Q := fun _ => True); trivial; cbn [AstSorts.sorted]; intros S L; splits; unfold lines in *; cbn [words] in L; cbn [node_value].
  all: try discriminate.
  all: try match goal with o : option word, o' : option word, H : same_opt ?o ?o' = true |- _ => destruct o, o'; try discriminate H end.
  all: try (apply struct_legible; [try (match goal with k : copkind |- _ => destruct k | k : lukind |- _ => destruct k end); reflexivity|discriminate|];
    repeat match goal with |- Forall _ (_ :: _) => apply Forall_cons; [split; [reflexivity|]|] | |- Forall _ [] => apply Forall_nil end; cbn [fst snd]).
  all: try solve [apply wv_legible, L; rewrite ?in_app_iff; pose proof self_in; auto 10].
  all: try solve [apply ov_legible; intros ? E; try discriminate E; try (injection E as <-); subst; apply L; cbn [olist]; rewrite ?in_app_iff; pose proof self_in; auto 10].
  all: try solve [match goal with IH : sorted ?n = true -> _ |- legible (node_value ?n) => apply IH; [assumption|] end; intros ? W; apply L; rewrite ?in_app_iff; auto 10].
  all: try solve [eapply legible_all; [eassumption|eassumption|]; intros ? W; apply L; rewrite ?in_app_iff; auto 10].
  all: try solve [match goal with |- legible (match ?o with _ => _ end) => destruct o; [|exact I] end; cbn [onO on_opt olist] in *; splits;
    match goal with IH : sorted ?n = true -> _ |- legible (node_value ?n) => apply IH; [assumption|] end; intros ? W; apply L; rewrite ?in_app_iff; auto 10].
  all: try solve [match goal with |- legible (GList (match ?o with _ => _ end)) => destruct o; [|exact I] end; cbn [onO on_opt olist] in *; splits;
    eapply legible_all; [eassumption|eassumption|]; intros ? W; apply L; rewrite ?in_app_iff; auto 10].
  all: try solve [apply made_legible; [reflexivity|apply L, self_in|reflexivity|cbn; auto]].
Qed.
End Lines.

(** ** Reading the tree back *)

Lemma word_value_inj w w' : word_value w = word_value w' -> bare_word w = bare_word w'.
Proof. intros E. injection E as E. apply (cancel_r1 _ _ """"%char) in E. unfold bare_word. congruence. Qed.
Lemma opt_word_inj o o' : opt_word o = opt_word o' -> option_map bare_word o = option_map bare_word o'.
Proof. destruct o, o'; cbn; intros E; try discriminate E; [|reflexivity]. f_equal. apply word_value_inj, E. Qed.
Lemma made_inj a w w' b : GMade (a ++ quote_char ++ w_t w ++ quote_char ++ b)%string = GMade (a ++ quote_char ++ w_t w' ++ quote_char ++ b)%string -> bare_word w = bare_word w'.
Proof.
  intros E. injection E as E. apply cancel_l in E. injection E as E. unfold bare_word. f_equal. revert E. generalize (String (ascii_of_nat 34) b). intros r.
  assert (K : forall x y : string, (x ++ r)%string = (y ++ r)%string -> String.length x = String.length y).
  { intros x y E. apply (f_equal String.length) in E. assert (A : forall u v, String.length (u ++ v)%string = String.length u + String.length v) by (induction u; cbn; auto).
    rewrite !A in E. lia. }
  intros E. specialize (K _ _ E). revert K E. generalize (w_t w) (w_t w'). intros x. induction x as [|c x IH]; intros [|d y] K E; try discriminate K; [reflexivity|].
  injection E as -> E. f_equal. apply IH; [injection K as K; exact K|exact E].
Qed.

Section Back.
Variable lefts : copkind -> bool -> list shape.
Variable rights : copkind -> list shape.
Notation sorted := (sorted lefts rights).
Hypothesis lefts_fine : forall k to, ~ In SDiscourse (lefts k to).
Hypothesis rights_fine : forall k, ~ In SDiscourse (rights k).

Definition listed (n : node) : Prop := sorted n = true /\ shape_of n <> SDiscourse.
Lemma among_fine l n : ~ In SDiscourse l -> among l n && sorted n = true -> listed n.
Proof.
  intros N H. apply andb_prop in H. destruct H as [A S]. split; [exact S|]. unfold among in A. apply existsb_exists in A. destruct A as (s & I & E).
  destruct (shape_eq_dec s (shape_of n)) as [->|]; [|discriminate E]. intros X. rewrite X in I. exact (N I).
Qed.

Definition inj (n : node) : Prop := forall n', listed n -> listed n' -> node_value n = node_value n' -> bare n = bare n'.

Lemma inj_list l1 : Forall inj l1 -> forall c l2, ~ In SDiscourse c -> forallb (fun x => among c x && sorted x) l1 = true -> forallb (fun x => among c x && sorted x) l2 = true ->
  map node_value l1 = map node_value l2 -> map bare l1 = map bare l2.
Proof.
  induction 1 as [|x l H _ IH]; intros c [|y l2] N A B E; cbn in E; try discriminate E; [reflexivity|]. cbn [forallb map] in *. injection E as E1 E2.
  apply andb_prop in A, B. destruct A as [A1 A2], B as [B1 B2]. f_equal.
  - apply H; [eapply among_fine; eassumption|eapply among_fine; eassumption|exact E1].
  - eapply IH; eassumption.
Qed.

Lemma cop_name_inj k k' : cop_name k = cop_name k' -> k = k'.
Proof. destruct k, k'; try reflexivity; discriminate. Qed.
Lemma lu_name_inj k k' : lu_name k = lu_name k' -> k = k'.
Proof. destruct k, k'; try reflexivity; discriminate. Qed.


Definition fields_of (v : value) : list value := match v with GStruct _ fs => map snd fs | _ => [] end.
Lemma cons_inj {A} (x y : A) l m : x :: l = y :: m -> x = y /\ l = m.
Proof. intros E. injection E as -> ->. auto. Qed.
Lemma glist_inj l m : GList l = GList m -> l = m.
Proof. intros E. injection E as ->. reflexivity. Qed.
Lemma not_nil n : node_value n <> GNil.
Proof. destruct n; discriminate. Qed.

Ltac fine := first [apply lefts_fine | apply rights_fine | cbn; intuition discriminate].
Ltac node := match goal with IH : inj ?n |- bare ?n = bare _ => apply IH; [eapply among_fine; [|eassumption]; fine|eapply among_fine; [|eassumption]; fine|assumption] end.
Ltac nodes := eapply inj_list; [eassumption| |eassumption|eassumption|assumption]; fine.
Lemma inj_all n : inj n.
Proof.
  induction n using node_ind2 with (Q := fun _ => True); trivial; intros n' [Sn Dn] [Sn' Dn'] E; destruct n'; cbn [node_value] in E.
  all: try discriminate E.
  all: try (match goal with k : copkind |- _ => destruct k | k : lukind |- _ => destruct k end; discriminate E).
  all: try (exfalso; apply Dn; reflexivity). all: try (exfalso; apply Dn'; reflexivity).
  all: cbn [AstSorts.sorted] in Sn, Sn'; try discriminate Sn; try discriminate Sn'.
  all: repeat match goal with H : _ && _ = true |- _ => lazymatch type of H with among _ _ && _ = true => fail | _ => apply andb_prop in H; destruct H end end.
  all: try (assert (k0 = k) by (injection E; intros; first [apply cop_name_inj | apply lu_name_inj]; congruence); subst k0).
  all: try (apply made_inj in E; cbn [bare]; rewrite E; reflexivity).
  all: try (apply glist_inj in E; cbn [bare]; f_equal; nodes).
  all: apply (f_equal fields_of) in E; cbn [fields_of map snd] in E;
    repeat match goal with H : _ :: _ = _ :: _ |- _ => apply cons_inj in H; destruct H | H : GList _ = GList _ |- _ => apply glist_inj in H end; cbn [bare].
  all: f_equal; try node; try nodes; try (apply word_value_inj; assumption); try (apply opt_word_inj; assumption).
  - destruct ld as [x|], leading as [y|]; cbn [onO on_opt] in *; try reflexivity; try (exfalso; eapply not_nil; eassumption || (symmetry; eassumption)).
    + f_equal. node.
  - destruct ts as [x|], ts0 as [y|]; cbn [onO on_opt] in *; splits; try reflexivity.
    + f_equal. nodes.
    + exfalso. destruct x; discriminate.
    + exfalso. destruct y; discriminate.
  - destruct rel as [x|], rel0 as [y|]; cbn [onO on_opt] in *; try reflexivity; try (exfalso; eapply not_nil; eassumption || (symmetry; eassumption)).
    + f_equal. node.
Qed.
End Back.
