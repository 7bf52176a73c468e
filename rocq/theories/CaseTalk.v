(** Case and sequences of calls. *)

From Coq Require Import String Ascii NArith ZArith PArith List Bool Lia Arith.
From Verif Require Import Base Utf8 Utf8Facts PegSyntax Grammar Peg PegToaq PegFacts TreeSpec Ast AstInd Action Loc Parser ParserSpec ApiFacts LogicWords App AppSpec AppApi CaseFold CaseFacts CaseText CaseAlike CaseTree CaseApi.
Import ListNotations.
Open Scope nat_scope.

Section Talk.
Variable is_punct : N -> bool.
Hypothesis Hp : punct_no_letter is_punct.
Variables t u : string.
Hypothesis Hs : small t = small u.

Definition pair_of (p q : parser) : Prop :=
  q_text p = t /\ q_text q = u /\ q_m p = q_m q /\ stored (q_node p) (q_node q) /\ q_fail p = q_fail q /\ made (q_act p) (q_act q).
Definition same_parse (x y : res (option perror)) : Prop :=
  match x, y with
  | Ok None, Ok None => True
  | Ok (Some e), Ok (Some e') => alike_error e e'
  | Panic q, Panic q' => q = q'
  | NoFuel, NoFuel => True
  | _, _ => False
  end.
Lemma enough_same s r : enough t s r = enough u s r.
Proof. unfold enough. rewrite (len_same t u Hs). reflexivity. Qed.
Lemma parse_same r start p q : pair_of p q -> same_parse (fst (parse is_punct r start p)) (fst (parse is_punct r start q)) /\ pair_of (snd (parse is_punct r start p)) (snd (parse is_punct r start q)).
Proof.
  intros I. pose proof I as (Tp & Tq & M & N & F & A). unfold parse. rewrite Tp, Tq, (len_same t u Hs). destruct (String.length u <? start); [split; [reflexivity|exact I]|].
  rewrite enough_same, (accepts_same is_punct Hp t u Hs), M. destruct (accepts toaq is_punct u (enough u start r) r start (q_m q)) as [[[dp pe] m1]|]; [|split; [exact Logic.I|exact I]].
  destruct (0 <=? dp)%Z; [split; [exact Logic.I|]; repeat split; assumption || apply A|].
  rewrite enough_same, (fail_same is_punct Hp t u Hs), F. destruct (fail_of toaq is_punct u m1 pe (enough u 0 r_full_text) r_full_text 0 (q_fail q)) as [[[x f] fs]|]; [|split; [exact Logic.I|]; repeat split; try assumption; apply A].
  pose proof (message_same t u Hs f) as E. destruct (simple_error t f) as [e|z|], (simple_error u f) as [e'|z'|]; cbn in E; try contradiction; (split; [exact E|]; repeat split; assumption || apply A).
Qed.
Lemma start_same a b : made a b -> made (start_act a) (start_act b).
Proof. intros (E1 & E2 & M). split; [exact E1|]. split; [reflexivity|exact M]. Qed.
Lemma clean_same a b : made a b -> made (Ast m2_empty (a_next a) (a_hits a)) (Ast m2_empty (a_next b) (a_hits b)).
Proof. intros (E1 & E2 & M). split; [exact E1|]. split; [exact E2|]. intros r pos. cbn [a_map]. rewrite !m2_get_empty. exact I. Qed.
Lemma fresh_nodes : stored m2_empty m2_empty.
Proof. intros r pos. reflexivity. Qed.

Lemma tree_same_p p q : pair_of p q -> alike_result (fun n m => option_map small_tree n = option_map small_tree m) (fst (tree is_punct p)) (fst (tree is_punct q)) /\ pair_of (snd (tree is_punct p)) (snd (tree is_punct q)).
Proof.
  intros I. unfold tree. destruct (parse_same r_full_text 0 p q I) as [E J].
  destruct (parse is_punct r_full_text 0 p) as [[[e|]|z|] p1], (parse is_punct r_full_text 0 q) as [[[e'|]|z'|] q1]; cbn [fst snd] in E, J |- *; try contradiction; try (split; [exact E|exact J]).
  pose proof J as (Tp & Tq & M & N & F & A). rewrite Tp, Tq, M, enough_same.
  pose proof (node_same is_punct Hp t u Hs (q_m q1) (enough u 0 r_full_text) r_full_text 0 _ _ N) as B.
  destruct (node_of toaq is_punct t (q_m q1) _ _ _ _) as [[o s]|], (node_of toaq is_punct u (q_m q1) _ _ _ _) as [[o' s']|]; cbn in B; try contradiction; [|split; [exact Logic.I|exact J]].
  destruct B as [B _]. cbn [fst snd]. split.
  - destruct o as [[x n]|], o' as [[x' n']|]; try discriminate B; [|reflexivity]. injection B as _ B. cbn. rewrite B. reflexivity.
  - split; [exact eq_refl|]. split; [exact eq_refl|]. split; [exact eq_refl|]. split; [exact fresh_nodes|]. split; [exact F|exact A].
Qed.
Lemma text_same_p p q : pair_of p q -> alike_result (fun n m => option_map low_node n = option_map low_node m) (fst (text_of is_punct p)) (fst (text_of is_punct q)) /\ pair_of (snd (text_of is_punct p)) (snd (text_of is_punct q)).
Proof.
  intros I. unfold text_of. destruct (parse_same r_full_text 0 p q I) as [E J].
  destruct (parse is_punct r_full_text 0 p) as [[[e|]|z|] p1], (parse is_punct r_full_text 0 q) as [[[e'|]|z'|] q1]; cbn [fst snd] in E, J |- *; try contradiction; try (split; [exact E|exact J]).
  pose proof J as (Tp & Tq & M & N & F & A). rewrite Tp, Tq, M, enough_same.
  pose proof (action_same is_punct Hp t u Hs (q_m q1) (enough u 0 r_full_text) r_full_text 0 _ _ (start_same _ _ A)) as B.
  destruct (action_of toaq is_punct t (q_m q1) _ _ _ _) as [[[|z|x v] s]|], (action_of toaq is_punct u (q_m q1) _ _ _ _) as [[[|z'|x' v'] s']|]; cbn in B; try contradiction.
  - split; [reflexivity|]. repeat split; try assumption; apply clean_same, B.
  - destruct B as [-> B]. split; [reflexivity|]. repeat split; try assumption; apply B.
  - destruct B as (-> & V & B).
    assert (K : made (Ast m2_empty (a_next s) (a_hits s)) (Ast m2_empty (a_next s') (a_hits s'))) by (apply clean_same, B).
    destruct v as [?|?|n|[?|]|? ?|? ?|? ? ?|? ?|? ?|? ?|], v' as [?|?|n'|[?|]|? ?|? ?|? ? ?|? ?|? ?|? ?|]; cbn in V; try discriminate V;
      (split; [try reflexivity|repeat split; try assumption; apply K]).
    injection V as V. cbn. rewrite V. reflexivity.
  - split; [exact Logic.I|exact J].
Qed.
Lemma word_same_p offs p q : pair_of p q -> alike_result (fun x y => low_word (fst x) = low_word (fst y) /\ snd x = snd y) (fst (word_at is_punct offs p)) (fst (word_at is_punct offs q)) /\ pair_of (snd (word_at is_punct offs p)) (snd (word_at is_punct offs q)).
Proof.
  intros I. unfold word_at. destruct (parse_same r_word offs p q I) as [E J].
  destruct (parse is_punct r_word offs p) as [[[e|]|z|] p1], (parse is_punct r_word offs q) as [[[e'|]|z'|] q1]; cbn [fst snd] in E, J |- *; try contradiction; try (split; [exact E|exact J]).
  pose proof J as (Tp & Tq & M & N & F & A). rewrite Tp, Tq, M, enough_same.
  pose proof (action_same is_punct Hp t u Hs (q_m q1) (enough u offs r_word) r_word offs _ _ (start_same _ _ A)) as B.
  destruct (action_of toaq is_punct t (q_m q1) _ _ _ _) as [[[|z|x v] s]|], (action_of toaq is_punct u (q_m q1) _ _ _ _) as [[[|z'|x' v'] s']|]; cbn in B; try contradiction.
  - split; [reflexivity|]. repeat split; try assumption; apply B.
  - destruct B as [-> B]. split; [reflexivity|]. repeat split; try assumption; apply B.
  - destruct B as (-> & V & B).
    destruct v as [?|w|n|[?|]|? ?|? ?|? ? ?|? ?|? ?|? ?|], v' as [?|w'|n'|[?|]|? ?|? ?|? ? ?|? ?|? ?|? ?|]; cbn in V; try discriminate V;
      (split; [try reflexivity|repeat split; try assumption; apply B]).
    injection V as V. split; [exact V|reflexivity].
  - split; [exact Logic.I|exact J].
Qed.
Lemma talks l : forall p q, pair_of p q -> Forall2 alike_answer (talk is_punct l p) (talk is_punct l q).
Proof.
  induction l as [|c l IH]; intros p q I; [constructor|]. cbn [talk]. destruct c as [| |offs]; cbn [ask fst snd].
  - destruct (tree_same_p p q I). constructor; auto.
  - destruct (text_same_p p q I). constructor; auto.
  - destruct (word_same_p offs p q I). constructor; auto.
Qed.
End Talk.

Theorem talks_same is_punct : punct_no_letter is_punct -> forall t u, small t = small u ->
  forall calls, Forall2 alike_answer (talk is_punct calls (new_parser t)) (talk is_punct calls (new_parser u)).
Proof.
  intros Hp t u Hs calls. apply (talks is_punct Hp t u Hs). unfold pair_of. cbn [new_parser q_text q_m q_node q_fail q_act].
  do 3 (split; [reflexivity|]). split; [exact fresh_nodes|]. do 3 (split; [reflexivity|]). intros r pos. cbn [a_map ast0]. rewrite m2_get_empty. exact I.
Qed.

Lemma talk_case : let calls := [CWord 4; CTree; CWord 0; CText; CWord 7] in
  small "JAI? xx" = small "jai? xx" /\ talk ascii_punct calls (new_parser "JAI? xx") <> talk ascii_punct calls (new_parser "jai? xx").
Proof.
  split; [vm_compute; reflexivity|]. intros E. apply (f_equal (fun l => match nth 2 l (AnTree NoFuel) with AnWord (Ok (Got (w, _))) => w_t w | _ => ""%string end)) in E.
  vm_compute in E. discriminate E.
Qed.
