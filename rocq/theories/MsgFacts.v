(** The message of a syntax error. *)

From Coq Require Import String NArith ZArith List Bool Arith Lia.
From Verif Require Import Base Utf8 Utf8Facts Loc PegSyntax Grammar Peg PegToaq Parser ParserFacts FailFacts Dedup DedupSpec DedupFacts ErrFacts DedupApi.
Import ListNotations.
Open Scope nat_scope.

Local Infix "+++" := String.append (right associativity, at level 60).

Lemma want_tail : forall ls i n want, i + List.length ls = n -> 2 <= i -> 1 < String.length want ->
  want_list i n want ls = want +++ enumerate (map f_want ls).
Proof.
  induction ls as [|l ls IH]; intros i n want E I W; cbn [want_list map enumerate].
  - rewrite sapp_nil_r. reflexivity.
  - cbn [List.length] in E. destruct ls as [|l2 ls].
    + assert (Q : (i =? n - 1) = true) by (apply Nat.eqb_eq; cbn in E; lia). rewrite Q. rewrite (proj2 (Nat.eqb_neq i 1)) by lia. rewrite (proj2 (Nat.ltb_lt 1 _)) by lia.
      cbn [andb want_list map]. rewrite !sapp_assoc. reflexivity.
    + assert (Q : (i =? n - 1) = false) by (apply Nat.eqb_neq; cbn in E; lia). rewrite Q. cbn [andb]. rewrite (proj2 (Nat.ltb_lt 0 i)) by lia.
      rewrite IH; [| lia | lia |rewrite !slength_app; cbn; lia]. cbn [map]. rewrite !sapp_assoc. reflexivity.
Qed.

Lemma want_words ls : want_list 0 (List.length ls) "" ls = in_words (map f_want ls).
Proof.
  destruct ls as [|a [|b [|c ls]]]; [reflexivity|reflexivity|cbn -[String.append]; cbn [String.append]; rewrite sapp_assoc; reflexivity|].
  set (l3 := c :: ls). change (List.length (a :: b :: l3)) with (S (S (List.length l3))). cbn [want_list].
  assert (Q0 : (0 =? S (S (List.length l3)) - 1) = false) by reflexivity. assert (Q1 : (1 =? S (S (List.length l3)) - 1) = false) by (unfold l3; reflexivity).
  rewrite Q0, Q1. cbn [andb Nat.ltb Nat.leb]. rewrite want_tail; [|lia|lia|rewrite !slength_app; cbn; lia].
  unfold l3. cbn [map in_words enumerate]. cbn [String.append]. rewrite !sapp_assoc. reflexivity.
Qed.

Lemma error_words text f e : simple_error text f = Ok e -> exists l, hd_error (leaf_fails f) = Some l /\
  pe_msg e = "want " +++ in_words (map f_want (leaf_fails f)) +++ "; got " +++ found text (f_pos l).
Proof.
  unfold simple_error. destruct (leaf_fails f) as [|l ls] eqn:E; [discriminate|]. rewrite want_words. destruct (location text (f_pos l)) as [lc|]; [|discriminate].
  intros Q. injection Q as <-. exists l. split; [reflexivity|]. cbn [pe_msg]. unfold found.
  assert (Lr := sdrop_length (f_pos l) text). set (rest := sdrop (f_pos l) text) in *. 
  destruct (f_pos l <? String.length text) eqn:Hl.
  - apply Nat.ltb_lt in Hl. destruct rest as [|ch rest]; [cbn in Lr; lia|].
    assert (S10 : forall k, k = Nat.min 10 (String.length (String ch rest)) -> stake k (String ch rest) = stake 10 (String ch rest)).
    { clear. intros k ->. generalize (String ch rest) as s, 10 as n. induction s as [|c s IH]; intros [|n]; cbn; try reflexivity. f_equal. apply IH. }
    rewrite (S10 (Nat.min (f_pos l + 10) (String.length text) - f_pos l)) by lia. reflexivity.
  - apply Nat.ltb_ge in Hl. destruct rest as [|ch rest]; [reflexivity|cbn in Lr; lia].
Qed.

Section Api.
Variable is_punct : N -> bool.
Variable text : string.

Lemma gives_simple p e : dinv is_punct text p -> gives is_punct p e -> simple_error text (pe_tree e) = Ok e.
Proof.
  intros D G. assert (P : exists r start, fst (parse is_punct r start p) = Ok (Some e)).
  { destruct G as [G|[G|(offs & G)]]; [apply tree_err in G|apply text_err in G|apply word_err in G]; eauto. }
  destruct P as (r & start & E). destruct (le_lt_dec start (String.length text)) as [Hs|Hs].
  - destruct (parse_case _ _ r start p (proj1 D) Hs) as (res & err & m1 & _ & _ & _ & _ & _ & C). destruct res as [x|]; [rewrite C in E; discriminate|].
    destruct C as (o & f & fs & e' & h & _ & Es & _ & _ & C). rewrite C in E. injection E as <-. rewrite (simple_tree _ _ _ Es). exact Es.
  - rewrite (parse_beyond _ _ _ _ _ (proj1 D) Hs) in E. discriminate.
Qed.

Theorem error_message p e : reach_dedup is_punct text p -> gives is_punct p e ->
  leaves_at (pe_offset e) (pe_tree e) <> [] /\
  pe_msg e = "want " +++ in_words (map f_want (leaves_at (pe_offset e) (pe_tree e))) +++ "; got " +++ found text (Z.to_nat (pe_offset e)).
Proof.
  intros H G. assert (D := reach_dinv _ _ _ H). assert (Es := gives_simple p e D G). assert (Lf := leaves_error _ _ p e H G).
  destruct (gives_tree _ _ p e D G) as ((h & C) & _ & _ & _ & Ne & Ps). rewrite <- Lf. split; [exact Ne|].
  destruct (error_words _ _ _ Es) as (l & Hl & ->). destruct (leaf_fails (pe_tree e)) as [|l' ls]; [discriminate|]. injection Hl as ->.
  rewrite <- (Ps l (or_introl eq_refl)), Nat2Z.id. reflexivity.
Qed.
End Api.
