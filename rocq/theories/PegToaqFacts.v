(** The grammar of toaq.go meets the side conditions of PegFacts.v: checked rule by
    rule by computation. *)

From Coq Require Import String NArith ZArith PArith List Bool FMapPositive PeanoNat Lia.
From Verif Require Import Base Utf8 PegSyntax Grammar Peg PegToaq PegSpec PegFacts.
Import ListNotations.

Definition toaq_wf_check : bool :=
  forallb (fun p => wf_rule toaq toaq_nullable toaq_rank max_rank (fst p)) (PositiveMap.elements rule_map)
  && forallb (fun p => (snd p <=? max_rank)%nat) (PositiveMap.elements rank_map).

Lemma toaq_wf_true : toaq_wf_check = true.
Proof. vm_compute. reflexivity. Qed.

Lemma toaq_wf r : wf_rule toaq toaq_nullable toaq_rank max_rank r = true.
Proof.
  pose proof toaq_wf_true as H. unfold toaq_wf_check in H. apply andb_true_iff in H. destruct H as [H1 H2].
  destruct (PositiveMap.find r rule_map) as [x|] eqn:E.
  - rewrite forallb_forall in H1. apply (H1 (r, x)). apply PositiveMap.elements_correct. exact E.
  - assert (Hr : (toaq_rank r <=? max_rank)%nat = true).
    { unfold toaq_rank. destruct (PositiveMap.find r rank_map) as [n|] eqn:En; [|reflexivity].
      rewrite forallb_forall in H2. apply (H2 (r, n)). apply PositiveMap.elements_correct. exact En. }
    unfold wf_rule, toaq. rewrite E. cbn [r_body no_rule nul left_ok plus_ok]. rewrite Hr. reflexivity.
Qed.
