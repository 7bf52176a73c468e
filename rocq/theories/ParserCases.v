(** Concrete runs of the parser. *)

From Coq Require Import String Ascii NArith ZArith PArith List Lia.
From Verif Require Import Base Utf8 Loc PegSyntax Grammar Peg PegToaq PegSpec TreeSpec Ast AstSorts Action ActionSpec Parser
  ParserSpec NodeFacts ApiFacts.
Import ListNotations.
Open Scope nat_scope.
Open Scope list_scope.

Lemma chain_case : chain ascii_punct "hio" [(r_full_text, 0); (r_text, 0)].
Proof.
  constructor.
  - cbn [fst snd]. rewrite find_full. cbn [r_body]. apply UAction, USeq1, ULabel, UCall.
  - cbn. lia.
  - constructor. cbn. lia.
Qed.

Lemma history_case :
  let p := new_parser "hio? ji/" in
  let p' := snd (word_at ascii_punct 5 (snd (tree ascii_punct p))) in
  reach ascii_punct "hio? ji/" p' /\
  fst (text_of ascii_punct p) = fst (text_of ascii_punct p') /\
  exists n, fst (text_of ascii_punct p) = Ok (Got (Some n)).
Proof.
  cbv zeta. split; [apply RWord, RTree, RNew|]. split; [vm_compute; reflexivity|]. eexists. vm_compute. reflexivity.
Qed.

Lemma replacement_stops :
  exists text t, fst (tree ascii_punct (new_parser text)) = Ok (Got (Some t)) /\
    (exists n, fst (text_of ascii_punct (new_parser text)) = Ok (Got (Some n))) /\
    p_text t <> text.
Proof.
  exists ("hio?" ++ encode_rune rune_error ++ "garbage")%string. eexists. split; [vm_compute; reflexivity|].
  split; [eexists; vm_compute; reflexivity|]. vm_compute. discriminate.
Qed.

Lemma tree_case :
  exists n, fst (tree ascii_punct (new_parser "hio? ji/")) = Ok (Got (Some n)) /\
    concat_texts (leaves n) = "hio? ji/"%string /\ length (leaves n) = 15.
Proof. eexists. split; [vm_compute; reflexivity|]. split; vm_compute; reflexivity. Qed.

Lemma tree_not_text :
  exists text t, fst (tree ascii_punct (new_parser text)) = Ok (Got (Some t)) /\
    forall n, fst (text_of ascii_punct (new_parser text)) <> Ok (Got n).
Proof.
  exists "dai4"%string. eexists. split; [vm_compute; reflexivity|]. intros n H. vm_compute in H. discriminate.
Qed.

Lemma both_fail :
  (exists e, fst (text_of ascii_punct (new_parser "hio? xx")) = Ok (Err e)) /\
  (exists e, fst (tree ascii_punct (new_parser "hio? xx")) = Ok (Err e)).
Proof. split; eexists; vm_compute; reflexivity. Qed.

Lemma error_case :
  exists e, fst (text_of ascii_punct (new_parser "hio? xx")) = Ok (Err e) /\
    pe_offset e = 5%Z /\ pe_loc e = Loc 5 5 1 6 /\ pe_msg e = "want space; got 'xx'"%string.
Proof. eexists. split; [vm_compute; reflexivity|]. split; [|split]; vm_compute; reflexivity. Qed.

Lemma text_panics : exists text, fst (text_of ascii_punct (new_parser text)) = Panic PRuntime.
Proof. exists "dai4"%string. vm_compute. reflexivity. Qed.

Lemma words_share :
  exists text w d w' d', let p := snd (word_at ascii_punct 0 (new_parser text)) in
    fst (word_at ascii_punct 0 (new_parser text)) = Ok (Got (w, d)) /\
    fst (word_at ascii_punct 0 p) = Ok (Got (w', d')) /\ w_m w' <> None /\
    exists i, In i (a_hits (q_act (snd (word_at ascii_punct 0 p)))) /\ (i < a_next (q_act p))%N /\
      m2_get (a_map (q_act p)) r_word 0 = Some (i, VWord w').
Proof.
  exists "hio? ji/"%string. do 4 eexists. cbv zeta. split; [vm_compute; reflexivity|]. split; [vm_compute; reflexivity|].
  split; [discriminate|]. eexists. split; [|split]; [| |vm_compute; reflexivity].
  - vm_compute. left. reflexivity.
  - vm_compute. reflexivity.
Qed.

Lemma fresh_case :
  let p := snd (text_of ascii_punct (new_parser "hio? ji/")) in
  reach_tt ascii_punct "hio? ji/" p /\ (0 < a_next (q_act p))%N /\
  exists n i, fst (text_of ascii_punct p) = Ok (Got (Some n)) /\
    In i (a_hits (q_act (snd (text_of ascii_punct p)))).
Proof.
  cbv zeta. split; [apply TText, TNew|]. split; [vm_compute; reflexivity|]. do 2 eexists. split; [vm_compute; reflexivity|].
  vm_compute. left. reflexivity.
Qed.

Lemma word_error_early :
  exists text offs e, fst (word_at ascii_punct offs (new_parser text)) = Ok (Err e) /\
    offs <= String.length text /\ (pe_offset e < Z.of_nat offs)%Z.
Proof.
  exists "jai xx"%string, 4. eexists. split; [vm_compute; reflexivity|]. split; [cbn; lia|]. vm_compute. reflexivity.
Qed.

Lemma no_digits_case :
  no_digits "hio? ji/" /\ (exists n, fst (text_of ascii_punct (new_parser "hio? ji/")) = Ok (Got (Some n))) /\
  ~ no_digits "hio1".
Proof.
  split; [|split].
  - intros c H. cbn in H. repeat (destruct H as [<-|H]; [vm_compute; intuition congruence|]). destruct H.
  - eexists. vm_compute. reflexivity.
  - intro H. apply (H "1"%char); [cbn; tauto|]. vm_compute. intuition congruence.
Qed.

Lemma not_own :
  exists text n, no_digits text /\ fst (text_of ascii_punct (new_parser text)) = Ok (Got (Some n)) /\
    well_sorted n = false.
Proof.
  exists "jai? jai^ na ru jai? ji/"%string. eexists. split; [|split; [vm_compute; reflexivity|vm_compute; reflexivity]].
  intros c H. cbn in H. repeat (destruct H as [<-|H]; [vm_compute; intuition congruence|]). destruct H.
Qed.

Lemma not_own_predicate :
  exists text n, no_digits text /\ fst (text_of ascii_punct (new_parser text)) = Ok (Got (Some n)) /\
    well_sorted n = false /\ sorted real_left own n = true.
Proof.
  exists "jai? to ru jai/ to jai?"%string. eexists.
  split; [|split; [vm_compute; reflexivity|split; vm_compute; reflexivity]].
  intros c H. cbn in H. repeat (destruct H as [<-|H]; [vm_compute; intuition congruence|]). destruct H.
Qed.

Lemma sorted_case :
  exists n, fst (text_of ascii_punct (new_parser "sa do/ bi gi? sa poq/ kio jai? ki")) = Ok (Got (Some n)) /\
    well_sorted n = true.
Proof. eexists. split; vm_compute; reflexivity. Qed.
