(** Concrete errors. *)

From Coq Require Import String NArith ZArith List.
From Verif Require Import Base Loc PegSyntax Peg Parser Dedup DedupSpec DedupApi.
Import ListNotations.
Open Scope Z_scope.

Definition count {A} (l : list A) : N := fold_left (fun n _ => N.succ n) l 0%N.

Definition error_of (text : string) : perror :=
  match fst (tree ascii_punct (new_parser text)) with Ok (Err e) => e | _ => PError (FNode 0 "" 0 "" []) (Loc 0 0 0 0) "" end.
Lemma error_of_dedup : fst (tree ascii_punct (new_parser "hao? xx")) = Ok (Err (error_of "hao? xx")).
Proof. vm_compute. reflexivity. Qed.

Lemma one_error_case :
  let p := new_parser "hao? xx" in
  let q := snd (word_at ascii_punct 5 (snd (word_at ascii_punct 0 (snd (tree ascii_punct p))))) in
  exists e, fst (tree ascii_punct p) = Ok (Err e) /\ pe_offset e = 5 /\
    later ascii_punct (snd (tree ascii_punct p)) q /\
    fst (text_of ascii_punct q) = Ok (Err e) /\ (exists w, fst (word_at ascii_punct 0 q) = Ok (Got w)).
Proof.
  intros p q. exists (error_of "hao? xx"). split; [exact error_of_dedup|]. split; [vm_compute; reflexivity|].
  split; [apply LWord, LWord, LHere|]. split; [vm_compute; reflexivity|]. eexists. vm_compute. reflexivity.
Qed.

Lemma dedup_case :
  exists e, fst (tree ascii_punct (new_parser "hao? xx")) = Ok (Err e) /\
    count (preorder (pe_tree e)) = 305%N /\ count (preorder (dedup (pe_tree e))) = 28%N.
Proof. exists (error_of "hao? xx"). split; [exact error_of_dedup|]. split; vm_compute; reflexivity. Qed.

Lemma dedup_message_refuted :
  exists text e e', let p := new_parser text in
    fst (tree ascii_punct p) = Ok (Err e) /\
    fst (tree ascii_punct (snd (tree ascii_punct p))) = Ok (Err e) /\
    fst (tree ascii_punct (dedup_parser (pe_tree e) (snd (tree ascii_punct p)))) = Ok (Err e') /\
    pe_msg e = "want space; got 'xx'"%string /\ pe_msg e' = "want space, , or ; got 'xx'"%string.
Proof.
  exists "hao? xx"%string, (error_of "hao? xx"). eexists. cbv zeta. split; [exact error_of_dedup|]. split; [vm_compute; reflexivity|].
  split; [vm_compute; reflexivity|]. split; vm_compute; reflexivity.
Qed.

Lemma message_case :
  exists e, fst (tree ascii_punct (new_parser "gia")) = Ok (Err e) /\ pe_offset e = 3 /\
    pe_msg e = "want [qQ], [ıiI], [oO], [5\^], [/2], [~7], [\\6], [?4], or [V3]; got EOF"%string.
Proof. exists (error_of "gia"). split; [|split]; vm_compute; reflexivity. Qed.
