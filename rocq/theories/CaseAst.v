(** Case and the trees of Text. *)

From Coq Require Import String Ascii NArith ZArith PArith List Bool Lia Arith.
From Verif Require Import Base Utf8 Utf8Facts PegSyntax Grammar Peg PegToaq PegFacts TreeSpec Ast AstInd Action Loc Parser ParserSpec ApiFacts LogicWords App AppSpec AppApi LateDigit CaseFold CaseFacts CaseApi CaseText CaseAlike CaseTree.
Import ListNotations.
Open Scope nat_scope.

Lemma texts_low is_punct : punct_no_letter is_punct -> forall t u, small t = small u -> forall n m,
  fst (text_of is_punct (new_parser t)) = Ok (Got (Some n)) -> fst (text_of is_punct (new_parser u)) = Ok (Got (Some m)) -> low_node n = low_node m.
Proof.
  intros Hp t u Hs n m. unfold text_of, parse. cbn [new_parser q_text q_m q_node q_fail q_act].
  assert (F : forall s r, enough t s r = enough u s r) by (intros; unfold enough; rewrite (len_same t u Hs); reflexivity).
  rewrite (len_same t u Hs). destruct (String.length u <? 0); [discriminate|]. rewrite F, (accepts_same is_punct Hp t u Hs).
  destruct (accepts toaq is_punct u (enough u 0 r_full_text) r_full_text 0 mst0) as [[[dp pe] ms]|]; [|discriminate].
  destruct (0 <=? dp)%Z.
  - cbn [q_text q_m q_node q_act]. rewrite ?F.
    assert (M : made (start_act ast0) (start_act ast0)).
    { split; [reflexivity|]. split; [reflexivity|]. intros r pos. destruct (m2_get (a_map (start_act ast0)) r pos) as [[i v]|] eqn:E; [|exact I]. vm_compute in E. destruct r; discriminate E. }
    pose proof (action_same is_punct Hp t u Hs ms (enough u 0 r_full_text) r_full_text 0 _ _ M) as B.
    destruct (action_of toaq is_punct t ms _ _ _ _) as [[o s]|], (action_of toaq is_punct u ms _ _ _ _) as [[o' s']|]; try discriminate; cbn in B; try contradiction; try (destruct o; contradiction).
    destruct o as [|q|p v], o' as [|q'|p' v']; cbn in B; try contradiction; try discriminate. destruct B as (_ & V & _).
    destruct v; try discriminate. destruct v'; try discriminate. cbn in V |- *. intros X Y. injection X as <-. injection Y as <-. injection V as V. exact V.
  - rewrite ?F, (fail_same is_punct Hp t u Hs). destruct (fail_of toaq is_punct u ms pe _ _ _ _) as [[[x f] fs]|]; [|discriminate].
    destruct (simple_error t f); discriminate.
Qed.

Theorem asts_same is_punct : punct_no_letter is_punct -> punct_plain is_punct -> forall t u, small t = small u ->
  forall p q n, reach is_punct t p -> reach is_punct u q -> fst (text_of is_punct p) = Ok (Got (Some n)) ->
  exists m, fst (text_of is_punct q) = Ok (Got (Some m)) /\ low_node n = low_node m.
Proof.
  intros Hl Hp t u Hs p q n R R' T. pose proof (texts_same is_punct Hl Hp t u Hs) as S. pose proof (texts_low is_punct Hl t u Hs) as L.
  pose proof (proj1 (proj2 (history is_punct t p (new_parser t) R (RNew _ _)))) as H. pose proof (proj1 (proj2 (history is_punct u q (new_parser u) R' (RNew _ _)))) as H'.
  rewrite T in H. destruct (fst (text_of is_punct (new_parser t))) as [[x|e]|z|]; cbn in H; try contradiction. subst x.
  destruct (fst (text_of is_punct (new_parser u))) as [[[m|]|e]|z|]; cbn in S; try contradiction.
  destruct (fst (text_of is_punct q)) as [[x|e]|z|]; cbn in H'; try contradiction. subst x. exists m. split; [reflexivity|]. eapply L; reflexivity.
Qed.
Lemma low_case : low 0 "JÍ" = low 0 "jí" /\ low 0 "ji" = low 0 "jı" /\ low 0 "JÁ" <> low 0 "ja" /\ low 0 "dǎI" <> low 0 "dáI" /\ low 0 "V" <> low 0 "v".
Proof. split; [vm_compute; reflexivity|]. split; [vm_compute; reflexivity|]. split; [|split]; intros E; vm_compute in E; discriminate E. Qed.
Fixpoint word_texts (n : node) : list string :=
  match n with
  | NText _ d => flat_map word_texts d
  | NSentence _ st _ => word_texts st
  | NPredication p ts _ => word_texts p ++ match ts with Some l => flat_map word_texts l | None => [] end
  | NPredArg _ _ p _ => word_texts p
  | NWordPredicate w => [w_t w]
  | _ => []
  end.
Definition texts_of (s : string) : list string := match fst (text_of ascii_punct (new_parser s)) with Ok (Got (Some n)) => word_texts n | _ => [] end.
Lemma ast_case : texts_of "JAI? JI/" = ["JẢI"; "JÍ"]%string /\ texts_of "jai? ji/" = ["jảı"; "jí"]%string.
Proof. split; vm_compute; reflexivity. Qed.
