(** What Word returns covers what it has read. *)

From Coq Require Import String Ascii NArith ZArith PArith List Bool Permutation FMapPositive Lia.
From Verif Require Import Base Utf8 Utf8Facts Tone PegSyntax Grammar Peg PegToaq PegSpec PegFacts PegToaqFacts Ast AstInd ModFacts
  Action ActionSpec Parser ActionFacts PegText ParserSpec ApiFacts VisitSpec ModSpec ModWords TileSpec SpellSpec TileFacts TileApi SpellFacts AstApi AstCases.
Import ListNotations.
Open Scope nat_scope.
Open Scope list_scope.

Section Text.
Variable is_punct : N -> bool.
Variable text : string.
Notation vsem := (vsem toaq is_punct text).

Lemma find_word : r_body (toaq r_word) =
  EAction AWordSpace [0; 1] (ESeq (ELabel 0 (ESub (EChoice (ECall 81%positive) (EChoice (ECall 83%positive) (ECall 82%positive))))) (ELabel 1 (EOpt (ECall 74%positive)))).
Proof. vm_compute. reflexivity. Qed.

Lemma word_value pos q w en : pos <= String.length text -> vsem (ECall r_word) pos (AOk q (VWord w, en)) ->
  exists e s, pos < e <= q /\ q <= String.length text /\ w = Wd s pos q (w_m w) /\ word_spelled is_punct text (s, pos, e) /\
    ((w_m w = None /\ e = q) \/
     exists t, w_m w = Some (NSpace (Wd t e q None)) /\ e < q /\ word_spelled is_punct text (t, e, q)).
Proof.
  intros B H. inversion H; subst; try discriminate.
  match goal with V : ActionSpec.vsem _ _ _ (r_body _) _ _ |- _ => rewrite find_word in V; inversion V; subst; clear V end; try discriminate.
  match goal with V : ActionSpec.vsem _ _ _ (ESeq _ _) _ _ |- _ => inversion V; subst; clear V end; try discriminate.
  repeat match goal with V : ActionSpec.vsem _ _ _ (ELabel _ _) _ _ |- _ => inversion V; subst; clear V; try discriminate end.
  match goal with V : ActionSpec.vsem _ _ _ (ESub _) _ (AOk ?e (?v, _)) |- _ =>
    rename V into V0; rename e into e0; rename v into v0 end.
  pose proof (proj1 (spans_all is_punct text) _ _ _ V0 B ltac:(vm_compute; reflexivity)) as (B1 & B2 & _).
  specialize (B2 ltac:(vm_compute; reflexivity)).
  pose proof (proj1 (deep_all is_punct text) _ _ _ V0 B ltac:(vm_compute; reflexivity) ltac:(vm_compute; reflexivity)) as D.
  cbn [deep_out] in D. apply deep_fits in D. destruct D as (D & _).
  match type of D with vfits _ (sk _ ?e) _ _ => assert (K : sk_word (sk toaq_sk e) = true) by (vm_compute; reflexivity) end.
  destruct (sk_word_str _ _ _ _ K D) as (s & ->). apply (fits_word _ _ _ _ _ _ K) in D.
  match goal with V : ActionSpec.vsem _ _ _ (EOpt _) _ _ |- _ => rename V into V1 end.
  inversion V1; subst; try discriminate.
  - match goal with V : ActionSpec.vsem _ _ _ (ECall 74) _ _ |- _ => rename V into V2 end.
    destruct (space_word_value _ _ _ _ _ _ V2) as (t & ->).
    pose proof (proj1 (spans_all is_punct text) _ _ _ V2 (proj2 B1) ltac:(vm_compute; reflexivity)) as (C1 & C2 & _).
    specialize (C2 ltac:(vm_compute; reflexivity)).
    pose proof (proj1 (deep_all is_punct text) _ _ _ V2 (proj2 B1) ltac:(vm_compute; reflexivity) ltac:(vm_compute; reflexivity)) as D2.
    cbn [deep_out] in D2. apply deep_fits in D2. destruct D2 as (_ & D2 & _).
    match goal with R : run_action _ _ _ _ _ = _ |- _ => cbn in R; injection R as <- end.
    exists e0, s. cbn [w_m]. split; [lia|]. split; [lia|]. split; [reflexivity|]. split; [exact D|].
    right. exists t. split; [reflexivity|]. split; [lia|]. apply D2. left. reflexivity.
  - match goal with R : run_action _ _ _ _ _ = _ |- _ => cbn in R; injection R as <- end.
    exists q, s. cbn [w_m]. split; [lia|]. split; [lia|]. split; [reflexivity|]. split; [exact D|]. left. split; reflexivity.
Qed.

Lemma word_covers p offs w d : reach is_punct text p -> fst (word_at is_punct offs p) = Ok (Got (w, d)) ->
  exists e q s, offs < e <= q /\ q <= String.length text /\ d = Z.of_nat (q - offs) /\
    w = Wd s offs q (w_m w) /\ word_spelled is_punct text (s, offs, e) /\
    ((w_m w = None /\ e = q) \/
     exists t, w_m w = Some (NSpace (Wd t e q None)) /\ e < q /\ word_spelled is_punct text (t, e, q)).
Proof.
  intros R E. destruct (Nat.le_gt_cases offs (String.length text)) as [B|B];
    [|rewrite (word_beyond _ _ p offs R B) in E; discriminate E].
  apply (proj1 (word_sem _ _ p offs R B)) in E. destruct E as (q & V & ->).
  destruct (word_value _ _ _ _ B V) as (e & s & B1 & B2 & X). exists e, q, s. split; [exact B1|]. split; [exact B2|]. split; [lia|exact X].
Qed.
End Text.

Lemma word_overlaps : exists text w d t u, fst (word_at ascii_punct 0 (new_parser text)) = Ok (Got (w, d)) /\
  toks (NWord w) = [t; u] /\ t_s u < t_e t.
Proof. exists "jai? "%string. do 4 eexists. split; [vm_compute; reflexivity|]. split; [reflexivity|]. cbn. lia. Qed.

Lemma word_case : exists w, fst (word_at ascii_punct 4 (new_parser "Hu? Jai/, mi?")) = Ok (Got (w, 6%Z)) /\
  w = Wd "Jáı" 4 10 (Some (NSpace (Wd ", " 8 10 None))).
Proof. eexists. split; [vm_compute; reflexivity|]. reflexivity. Qed.
