(** Messages that do not say what may stand at the place of the error. *)

From Coq Require Import String NArith ZArith List Bool Lia.
From Verif Require Import Base Utf8 PegSyntax Grammar Peg PegToaq PegSpec PegFacts NodeFacts PegToaqFacts Parser ParserSpec ParserFacts
  Dedup DedupSpec DedupApi ErrFacts MsgFacts WordSpec.
Import ListNotations.
Open Scope string_scope.
Open Scope Z_scope.

(* punctuation, tried on the letter, fails behind it; then nothing that failed before it is
   kept, except the rule space, whose failure is moved to its start *)
Lemma wants_differ : exists t t' e e',
  fst (tree ascii_punct (new_parser t)) = Ok (Err e) /\ fst (tree ascii_punct (new_parser t')) = Ok (Err e') /\
  pe_offset e = pe_offset e' /\ stake (Z.to_nat (pe_offset e)) t = stake (Z.to_nat (pe_offset e)) t' /\
  pe_msg e = "want space, &BEI, &KIO, &JU, &HU, or &RA; got EOF" /\ pe_msg e' = "want space; got 'x'".
Proof.
  exists "to ", "to x".
  assert (X : match fst (tree ascii_punct (new_parser "to ")), fst (tree ascii_punct (new_parser "to x")) with
    | Ok (Err e), Ok (Err e') => (pe_offset e =? 3) && (pe_offset e' =? 3) && String.eqb (pe_msg e) "want space, &BEI, &KIO, &JU, &HU, or &RA; got EOF" &&
        String.eqb (pe_msg e') "want space; got 'x'"
    | _, _ => false end = true) by (vm_compute; reflexivity).
  destruct (fst (tree ascii_punct (new_parser "to "))) as [[a|e]| |]; [discriminate X| |discriminate X|discriminate X].
  destruct (fst (tree ascii_punct (new_parser "to x"))) as [[a|e']| |]; [discriminate X| |discriminate X|discriminate X].
  apply andb_prop in X. destruct X as [X M']. apply andb_prop in X. destruct X as [X M]. apply andb_prop in X. destruct X as [O O'].
  apply Z.eqb_eq in O, O'. apply String.eqb_eq in M, M'. exists e, e'. rewrite O, O'. auto 6.
Qed.

Lemma not_farthest : exists t e err, fst (tree ascii_punct (new_parser t)) = Ok (Err e) /\
  @sem toaq ascii_punct t (ECall r_full_text) 0 None err /\ pe_offset e < err.
Proof.
  exists "to x".
  assert (X : match tree ascii_punct (new_parser "to x") with
    | (Ok (Err e), p) => (pe_offset e =? 3) && (snd (delta (q_m p) r_full_text 0) =? 5)
    | _ => false end = true) by (vm_compute; reflexivity).
  assert (R : reach ascii_punct "to x" (snd (tree ascii_punct (new_parser "to x")))) by apply RTree, RNew.
  assert (F : forall e, fst (tree ascii_punct (new_parser "to x")) = Ok (Err e) -> rejected ascii_punct "to x")
    by (intros e E; eapply (reach_rejected ascii_punct "to x" _ e (RNew _ _)); left; exact E).
  destruct (tree ascii_punct (new_parser "to x")) as [[[a|e]| |] p]; try discriminate X. cbn [fst snd] in *.
  apply andb_prop in X. destruct X as [O D]. apply Z.eqb_eq in O, D. exists e.
  unfold delta in D. destruct (m2_get (s_delta (q_m p)) r_full_text 0) as [[dp de]|] eqn:M; [|discriminate D]. cbn [snd] in D.
  destruct (pi_cons _ _ _ (reach_pinv _ _ _ R) _ _ _ _ M) as (_ & res & err & S & _ & E).
  destruct (F e eq_refl) as (err' & S'). destruct (sem_det _ _ _ _ _ _ _ _ _ S S') as [-> <-].
  exists err. split; [reflexivity|]. split; [exact S|]. rewrite O. cbn in E. lia.
Qed.
