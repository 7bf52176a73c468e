(** The tests of /repo/logic/interp_test.go, run on the model.  Generated by
    tools/gen_tests.py. *)

From Coq Require Import String NArith List Bool Arith.
From Verif Require Import Base Utf8 Ast AstCases LogicCases.
Import ListNotations.
Open Scope string_scope.
Open Scope list_scope.
Open Scope N_scope.

(** interp_test.go, tokenize and tokenLen, for the runes that occur. *)
Definition upper (r : N) : bool := in_range 65 90 r || (r =? rune_of "Λ").
Definition lower (r : N) : bool := in_range 97 122 r || (r =? rune_of "ι") || (r =? rune_of "λ").
Definition digit (r : N) : bool := in_range 48 57 r.
Fixpoint span (f : N -> bool) (l : list N) : list N * list N :=
  match l with
  | r :: l' => if f r then let (a, b) := span f l' in (r :: a, b) else ([], l)
  | [] => ([], [])
  end.
Fixpoint tokenize (fuel : nat) (l : list N) : list (list N) :=
  match fuel, l with
  | S f, r :: l' =>
      if r =? 32 then tokenize f l'
      else if upper r then
        let (a, b) := span upper l in let (c, d) := span digit b in (a ++ c) :: tokenize f d
      else if lower r then let (a, b) := span lower l in a :: tokenize f b
      else [r] :: tokenize f l'
  | _, _ => []
  end.
Definition tokens (s : string) : list string :=
  map of_runes (tokenize (String.length s) (runes s)).

(** The loop of interpTest.run: equal up to a renaming of the variables. *)
Fixpoint same_tokens (got want : list string) (vars : list (string * string)) : bool :=
  match got, want with
  | [], [] => true
  | g :: got', w :: want' =>
      if negb (upper (rune_of w)) then String.eqb g w && same_tokens got' want' vars
      else upper (rune_of g) &&
           match find (fun p => String.eqb (fst p) w) vars with
           | None => same_tokens got' want' ((w, g) :: vars)
           | Some (_, v) => String.eqb v g && same_tokens got' want' vars
           end
  | _, _ => false
  end.
Definition passes (t : string * string) : bool :=
  match logic_string (fst t) with
  | Ok got => same_tokens (tokens got) (tokens (snd t)) []
  | _ => false
  end.

Definition interp_tests : list (string * string) := [
  ("", "");
  ("gi?", "gi().");
  ("gi? hoq/", "[ιX : hoq(X)] gi(X).");
  ("mai? ji/ suq/", "[ιJ : ji(J)] [ιS : suq(S)] mai(J, S).");
  ("ji/ bi nuo?kuai-", "[ιJ : ji(J)] nuokuai().");
  ("haq/ ji/ bi noq?gi-", "[ιH : haq(H)] [ιJ : ji(J)] noqgi().");
  ("ji/ pa nuo?kuai-", "[ιJ : ji(J)] nuokuai(J).");
  ("haq/ ji/ pa noq?gi-", "[ιH : haq(H)] [ιJ : ji(J)] noqgi(H, J).");
  ("ji/ pa mai? suq/", "[ιJ : ji(J)] [ιS : suq(S)] mai(J, S).");
  ("haq/ ji/ pa noq?gi- ru noq?si-", "[ιH : haq(H)] [ιJ : ji(J)] noqgi(H, J) ∧ noqsi(H, J).");
  ("sa do/ bi gi? do/", "∃X gi(X).");
  ("ji/ roi suq/ pa deoq?", "[ιJ : ji(J)] [ιS : suq(S)] deoq(⌊J, S⌉).");
  ("to ru ji/ suq/ to suq/ ji/ pa deoq?", "[ιJ0 : ji(J0)] [ιS0 : suq(S0)] [ιS1 : suq(S1)] [ιJ1 : ji(J1)] deoq(J0, S0) ∧ deoq(S1, J1).");
  ("go ji/ pa choaq?", "[ιJ : ji(J)] choaq(·, J).");
  ("go ji/ roi suq/ pa choaq?", "[ιJ : ji(J)] [ιS : suq(S)] choaq(·, ⌊J, S⌉).");
  ("ne\ pui/poq-chao- bi fa? ji/", "[ιJ : ji(J)] [ιP : puipoqchao(P)] ne({fa(J)}, P).");
  ("ni~chaq- bi fa? ji/", "[ιJ : ji(J)] nichaq({fa(J)}).");
  ("ji/ pa to ru suq/ pa mai? to de?", "[ιJ : ji(J)] [ιS : suq(S)] mai(J, S) ∧ de(J).");
  ("ji/ pa to ru suq/ bi mai? to de?", "[ιJ : ji(J)] [ιS : suq(S)] mai() ∧ de(J).");
  ("hie? ji/ chea/ na ra deo? suq/ ", "[ιJ : ji(J)] [ιC : chea(C)] [ιS : suq(S)] hie(J, C) ∨ deo(S).");
  ("to ra hie? ji/ chea/ to deo? suq/ ", "[ιJ : ji(J)] [ιC : chea(C)] [ιS : suq(S)] hie(J, C) ∨ deo(S).");
  ("ji/ chea/ pa hie? na ra suq/ pa bo?doa-", "[ιJ : ji(J)] [ιC : chea(C)] [ιS : suq(S)] hie(J, C) ∨ bodoa(J, C, S).");
  ("to ra ji/ chea/ pa hie? to suq/ pa deo?", "[ιJ : ji(J)] [ιC : chea(C)] [ιS : suq(S)] hie(J, C) ∨ deo(S).");
  ("to ra ji/ chea/ pa hie? to deo? suq/", "[ιJ : ji(J)] [ιC : chea(C)] [ιS : suq(S)] hie(J, C) ∨ deo(S).");
  ("to ru de? ji/ to gi? na ra hui?", "[ιJ : ji(J)] de(J) ∧ (gi() ∨ hui()).");
  ("hio?ji-suq-ka-", "hiojisuqka().");
  ("sa do/ bi do? ji/", "[ιJ : ji(J)] ∃X X(J).");
  ("do? ji/", "[ιJ : ji(J)] U(J).");
  ("lu? hoa? ji/", "[ιJ : ji(J)] {λX X(J)}().");
  ("hoa? ji/", "[ιJ : ji(J)] U(J).");
  ("gu? poq?", "gu∘poq().");
  ("gu? poq? de?", "gu∘poq∘de().");
  ("gi? mu? kui?", "gi∘mu∘kui().");
  ("ji? mi? Hoaq?", "ji∘{λX chua(‹Hỏaq›, X)}().");
  ("ji? po? poq/", "[ιP : poq(P)] ji∘{λX raq(X, P)}().");
  ("ji? lu? mai? ji/ hoa/", "[ιJ : ji(J)] ji∘{λX mai(J, X)}().");
  ("ji? mi? Hoaq? ga ru de?", "ji∘{λX chua(‹Hỏaq›, X)}() ∧ ji∘de().");
  ("mi? Hoaq?", "{λX chua(‹Hỏaq›, X)}().");
  ("shu? toa?", "{λX X=‹tỏa›}().");
  ("rai? mi/ Hoaq?", "[ιX : chua(‹Hỏaq›, X)] rai(X).");
  ("rai? shu/ toa?", "rai(‹tỏa›).");
  ("po? ji/", "[ιJ : ji(J)] {λX raq(X, J)}().");
  ("jei? ji/", "[ιJ : ji(J)] {λX X=J}().");
  ("rai? po/ ji/", "[ιJ : ji(J)] [ιR : raq(R, J)] rai(R).");
  ("rai? jei/ ji/", "[ιJ : ji(J)] [ιX : X=J] rai(X).");
  ("rai? po/ sa poq/", "[ιX : [∃P : poq(P)] raq(X, P)] rai(X).");
  ("rai? po/ to roi ji/ to suq/", "[ιJ : ji(J)] [ιS : suq(S)] [ιX : raq(X, ⌊J, S⌉)] rai(X).");
  ("rai? po/ ji/ ru suq/", "[ιJ : ji(J)] [ιS : suq(S)] [ιX : raq(X, J) ∧ raq(X, S)] rai(X).");
  ("mo? Hio? ji/ suq/ ka teo", "{λX X=«Hỉo jí súq ka»}().");
  ("rai? mo/ Hio? ji/ suq/ ka teo", "rai(«Hỉo jí súq ka»).");
  ("de? ji/ ru suq/", "[ιJ : ji(J)] [ιS : suq(S)] de(J) ∧ de(S).");
  ("de? ji/ ra suq/", "[ιJ : ji(J)] [ιS : suq(S)] de(J) ∨ de(S).");
  ("de? ji/ ri suq/", "[ιJ : ji(J)] [ιS : suq(S)] de(J) ? de(S).")].

Example interp_tests_pass : forallb passes interp_tests = true.
Proof. vm_compute. reflexivity. Qed.
