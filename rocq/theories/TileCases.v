(** The words of concrete texts. *)

From Coq Require Import String NArith List Lia.
From Verif Require Import Base PegSyntax Ast Parser ParserSpec Visit VisitSpec VisitFacts AstCases TileSpec SpellSpec.
Import ListNotations.
Open Scope nat_scope.
Open Scope string_scope.
Open Scope list_scope.

(** A word after a parenthetical is put before its ki. *)
Lemma order_refuted : exists text n t u, fst (text_of ascii_punct (new_parser text)) = Ok (Got (Some n)) /\
  before t u (toks n) /\ t_e u <= t_s t.
Proof.
  exists "kio hio? ki hu ji/". destruct (parsed "kio hio? ki hu ji/") as [n|] eqn:E; [|vm_compute in E; discriminate].
  exists n. pose proof (parsed_ok _ _ E) as P. vm_compute in E. injection E as E.
  assert (T : toks n = [("kıo", 0, 3); (" ", 3, 4); ("hỉo", 4, 8); (" ", 8, 9); (" ", 11, 12); ("hu", 12, 14); (" ", 14, 15); ("jí", 15, 18); ("kı", 9, 11)])
    by (rewrite <- E; vm_compute; reflexivity).
  exists (" ", 11, 12), ("kı", 9, 11). split; [exact P|]. split; [|cbn; lia].
  rewrite T. exists [("kıo", 0, 3); (" ", 3, 4); ("hỉo", 4, 8); (" ", 8, 9)], [("hu", 12, 14); (" ", 14, 15); ("jí", 15, 18)], []. reflexivity.
Qed.

Lemma words_case :
  exists n, fst (text_of ascii_punct (new_parser "Hio? ke ji/ suqV, moq?")) = Ok (Got (Some n)) /\
    toks n = [("Hỉo", 0, 4); (" ", 4, 5); ("ke", 5, 7); (" ", 7, 8); ("jí", 8, 11); (" ", 11, 12); ("sǔq", 12, 16); (", ", 16, 18); ("moq", 18, 21); ("?", 21, 22)] /\
    letters "sǔq" = letters "suqV" /\ tones "sǔq" = tones "suqV" /\ tones "suqV" = [86%N] /\ letters "suqV" <> letters "suaV".
Proof.
  destruct (parsed "Hio? ke ji/ suqV, moq?") as [n|] eqn:E; [|vm_compute in E; discriminate]. exists n. split; [apply parsed_ok; exact E|].
  vm_compute in E. injection E as <-. repeat split; try (vm_compute; reflexivity). discriminate.
Qed.
