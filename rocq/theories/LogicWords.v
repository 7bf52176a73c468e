(** Model of the functions of /repo/logic/interp.go that look at words only. *)

From Coq Require Import String Ascii NArith List Bool.
From Verif Require Import Base Utf8 PegSyntax Tone Ast Visit Logic.
Import ListNotations.
Open Scope string_scope.
Open Scope list_scope.
Open Scope N_scope.

(** The functions of package unicode that the code calls: ToLower, ToUpper, IsLetter and
    IsSpace.  Nothing is assumed of them. *)
Record unicode : Type := Unicode {
  u_lower : N -> N;
  u_upper : N -> N;
  u_letter : N -> bool;
  u_space : N -> bool
}.

(** Their values on ASCII, for concrete cases. *)
Definition ascii_unicode : unicode := Unicode
  (fun r => if in_range 65 90 r then r + 32 else r)
  (fun r => if in_range 97 122 r then r - 32 else r)
  (fun r => in_range 65 90 r || in_range 97 122 r)
  (fun r => in_range 9 13 r || (r =? 32)).

Section Words.
Variable U : unicode.

(** strings.ToLower and strings.ToUpper. *)
Definition to_lower (s : string) : string := of_runes (map (u_lower U) (runes s)).
Definition to_upper (s : string) : string := of_runes (map (u_upper U) (runes s)).

(** interp.go:1114-1133, hasText.  tone.WithTone(s, tone.None) never panics
    (Props_Tone.C07_with_tone_returns). *)
Definition untoned (s : string) : string :=
  match with_tone s no_tone with Ok a => a | _ => s end.
Definition fold_rune (r : N) : N := u_lower U (if r =? rune_of "ı" then rune_of "i" else r).
Fixpoint same_text (a b : list N) : bool :=
  match a, b with
  | x :: a', y :: b' => if fold_rune x =? fold_rune y then same_text a' b' else false
  | [], [] => true
  | _, _ => false
  end.
Definition has_text (w : word) (s : string) : bool :=
  same_text (runes (untoned (w_t w))) (runes s).

(** interp.go:1136-1154, oLetters and oTones: runes that are an o with a tone, paired with
    the tone, in the order in which [d] lists the map. *)
Definition o_letters (d : list tone_row) : list (N * N) :=
  flat_map (fun x => match x with
                     | (t, l, f) => if String.eqb l "o" || String.eqb l "O" then [(rune_of f, t)] else []
                     end) (flatten d).

(** interp.go:1156-1182, splitVar; None is the result with false. *)
Definition split_var (ol : list (N * N)) (txt : string) : option (N * string) :=
  match txt with
  | EmptyString => None
  | String c rest =>
      if negb (byte_of c =? rune_of "d") then None
      else
        let (r, w) := decode_rune rest in
        match find (fun o => fst o =? r) ol with
        | None => None
        | Some o =>
            let after := sdrop w rest in
            if negb (String.eqb after "") && mem_rune (rune_of after) (runes "aeiıouAEIOUqQ")
            then None
            else Some (snd o, to_lower ("do" ++ after))
        end
  end.

(** interp.go:1001-1023, wordPred. *)
Definition word_pred (t : string) : string :=
  let name := of_runes (flat_map (fun r =>
                if r =? rune_of "v" then []
                else if r =? rune_of "ı" then [rune_of "i"]
                else if u_letter U r then [r] else []) (runes (to_lower (to_ascii t)))) in
  if String.eqb name "mea" then "≺"
  else if String.eqb name "jeqtu" then "="
  else name.

(** strings.TrimSpace: a string cut into its runes, each with its bytes; white space is
    dropped at both ends. *)
Fixpoint chunks (fuel : nat) (s : string) : list (N * string) :=
  match fuel, s with
  | S f, String _ _ => let (r, w) := decode_rune s in (r, stake w s) :: chunks f (sdrop w s)
  | _, _ => []
  end.
Fixpoint drop_space (l : list (N * string)) : list (N * string) :=
  match l with
  | [] => []
  | x :: l' => if u_space U (fst x) then drop_space l' else l
  end.
Definition trim_space (s : string) : string :=
  String.concat "" (map snd (rev (drop_space (rev (drop_space (chunks (String.length s) s)))))).

(** interp.go:1184-1192, toString. *)
Definition to_string (n : node) : string :=
  trim_space (visit (func_visitor (fun o s => match o with
                                              | Some (NWord w) => (s ++ w_t w)%string
                                              | _ => s
                                              end)) n tt "").

(** interp.go:1025-1033, poPred. *)
Definition po_pred (w : word) : res string :=
  if has_text w "po" then Ok "raq"
  else if has_text w "jei" then Ok "="
  else Panic (PString ("impossible: " ++ w_t w)).

(** interp.go:1035-1043, miPred: mi is a Swap of "chua", shu the predicate "=". *)
Inductive mi : Type := MiName | MiWord.
Definition mi_pred (w : word) : res mi :=
  if has_text w "mi" then Ok MiName
  else if has_text w "shu" then Ok MiWord
  else Panic (PString ("impossible: " ++ w_t w)).

(** interp.go:1045-1061, quantifier. *)
Definition quantifier (o : option word) : res quant :=
  match o with
  | None => Ok QThe
  | Some w =>
      if has_text w "ke" then Ok QThe
      else if has_text w "ja" then Ok QLambda
      else if has_text w "sa" then Ok QSome
      else if has_text w "tu" then Ok QEach
      else if has_text w "sia" then Ok QNone
      else if has_text w "hi" then Ok QHi
      else Panic (PString ("impossible: " ++ w_t w))
  end.

(** interp.go:1063-1075, connector. *)
Definition connector (w : word) : res conn :=
  if has_text w "ru" then Ok KAnd
  else if has_text w "ra" then Ok KOr
  else if has_text w "ri" then Ok KRi
  else if has_text w "roi" then Panic (PString ("bad connector: " ++ w_t w))
  else Panic (PString ("impossible: " ++ w_t w)).

(** interp.go:1077-1089, goPos. *)
Definition go_pos (w : word) : res nat :=
  if has_text w "fi" then Ok 1%nat
  else if has_text w "go" then Ok 2%nat
  else if has_text w "cu" then Ok 3%nat
  else if has_text w "ta" then Ok 4%nat
  else Panic (PString ("impossible: " ++ w_t w)).

(** interp.go:927-938, isHoaPredicate and isVariablePredicate; the tone, which no caller
    uses, is left out. *)
Definition is_hoa (n : node) : bool :=
  match n with
  | NWordPredicate w => String.eqb (to_lower (untoned (w_t w))) "hoa"
  | _ => false
  end.
Definition is_variable (ol : list (N * N)) (n : node) : option string :=
  match n with
  | NWordPredicate w => match split_var ol (w_t w) with Some (_, s) => Some s | None => None end
  | _ => None
  end.

End Words.

(** The %T of a node: its dynamic Go type. *)
Definition cop_type (k : copkind) : string :=
  match k with
  | CRaw => "*ast.CoP" | CSentence => "*ast.CoPSentence" | CStatement => "*ast.CoPStatement"
  | CPredicate => "*ast.CoPPredicate" | CTermSet => "*ast.TermSet" | CArgument => "*ast.CoPArgument"
  | CRelative => "*ast.CoPRelative" | CAdverb => "*ast.CoPAdverb"
  | CPreposition => "*ast.CoPPreposition" | CContent => "*ast.CoPContent"
  end.
Definition lu_type (k : lukind) : string :=
  match k with
  | LRaw => "*ast.LUPhrase" | LPredicate => "*ast.LUPredicate" | LRelative => "*ast.LURelative"
  | LContent => "*ast.LUContent"
  end.
Definition go_type (n : node) : string :=
  match n with
  | NText _ _ => "*ast.Text" | NDiscourse _ => "*ast.Discourse" | NSentence _ _ _ => "*ast.StatementSentence"
  | NPrenex _ _ => "*ast.Prenex" | NPrenexStmt _ _ => "*ast.PrenexStatement"
  | NPredication _ _ _ => "*ast.Predication" | NPrefixed _ _ => "*ast.PrefixedPredicate"
  | NSerial _ _ => "*ast.SerialPredicate" | NWordPredicate _ => "*ast.WordPredicate"
  | NMi _ _ _ => "*ast.MIPredicate" | NPo _ _ _ => "*ast.POPredicate" | NMo _ _ _ => "*ast.MOPredicate"
  | NLinked _ _ => "*ast.LinkedTerm" | NTerms _ => "ast.Terms" | NPredArg _ _ _ _ => "*ast.PredicateArgument"
  | NPredRel _ => "*ast.PredicationRelative" | NAdverb _ => "*ast.PredicateAdverb"
  | NPrep _ _ => "*ast.PredicationPreposition" | NPredContent _ => "*ast.PredicationContent"
  | NParen _ _ _ => "*ast.Parenthetical" | NIncidental _ _ => "*ast.Incidental"
  | NVocative _ _ => "*ast.Vocative" | NInterjection _ => "*ast.Interjection" | NSpace _ => "*ast.Space"
  | NCoP k _ _ _ _ _ => cop_type k | NLU k _ _ => lu_type k | NWord _ => "*ast.Word"
  end.
