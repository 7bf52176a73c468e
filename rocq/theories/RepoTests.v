(** The table tests of /repo, run on the model.  Generated by tools/gen_tests.py. *)

From Coq Require Import String List.
From Verif Require Import Base Ast Parser Braces.
Import ListNotations.
Open Scope string_scope.

Definition braces_of (s : string) : option string :=
  match fst (text_of ascii_punct (new_parser s)) with
  | Ok (Got (Some n)) => Some (braces_string n)
  | _ => None
  end.

(** ast/braces_test.go, TestBraces. *)
Definition braces_tests : list (string * string) := [
  ("", "");
  ("hio?", "hỉo");
  ("  hio?  ", "hỉo");
  ("hio? ji/ roi ho/ suq/", "(hỉo {[jí roı hó] súq})");
  ("rai? da ru rai? da", "({rảı da} ru {rảı da})");
  ("ji/ suq/ pa hio? ka", "({[<jí súq> pa] hỉo} ka)");
  ("rai? na ru rai? na", "({rảı na} ru {rảı na})");
  ("po?ji- pai?", "(pỏjī pảı)");
  ("mi/ Hoaq?", "(mí Hỏaq)");
  ("po/ ji/", "(pó jí)");
  ("mo/ hu mi/ Hoe?mai- teo", "(mó {hu [mí Hỏemāı]} teo)");
  ("lu/ cho? ji/ hoa/", "(lú {chỏ [jí hóa]})");
  ("ji/ ru jai?", "(jí ru jảı)");
  ("go suq/ ji/ pa hio?", "({[<go súq> jí] pa} hỉo)");
  ("pai? to ru ji/ suq/ to suq/ ji/", "(pảı {to ru [jí súq] to [súq jí]})");
  ("jai/ toaqVpoq-", "(jáı tǒaqpōq)");
  ("jai/ luV cho? ji/ hoa/", "(jáı {lǔ [chỏ <jí hóa>]})");
  ("jai/ poqV ru toaqVpoq-", "(jáı {pǒq ru tǒaqpōq})");
  ("meo? ji/ bu~", "(mẻo {jí bũ})");
  ("meo? ji/ bu~ ru jai~", "(mẻo {jí [bũ ru jãı]})");
  ("ji? ti\ ni/", "(jỉ {tì ní})");
  ("ji? ti\ ni/ ru rao\ ni/daq-", "(jỉ {[tì ní] ru [rào nídāq]})");
  ("cho? ji/ pai^ ji/ suq/", "(chỏ {jí [pâı <jí súq>]})");
  ("cho? ji/ lu^ ji/ suq/ pa pai?", "(chỏ {jí [lû <({jí súq} pa) pảı>]})");
  ("jai^ na ru bu? meo?", "({jâı na} ru {bủ mẻo})");
  ("kio hio? ka ki", "(kıo {hỉo ka} kı)");
  ("ji? ju de? ho/", "(jỉ {ju [dẻ hó]})");
  (" ", "")].

Example braces_tests_pass : map (fun t => braces_of (fst t)) braces_tests = map (fun t => Some (snd t)) braces_tests.
Proof. vm_compute. reflexivity. Qed.
