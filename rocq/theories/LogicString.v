(** Model of /repo/logic/string.go: String and PrettyString.  Writing to the
    strings.Builder never fails, so a printing function is the string it writes. *)

From Coq Require Import String Ascii NArith List Bool Arith DecimalString.
From Verif Require Import Base Utf8 Ast Logic LogicWords.
Import ListNotations.
Open Scope string_scope.
Open Scope list_scope.
Open Scope nat_scope.
Open Scope res_scope.

(** strconv.Itoa for a number that is not negative. *)
Definition itoa (n : nat) : string := NilEmpty.string_of_uint (Nat.to_uint n).

(** The strings that stand for quantifiers and connectors, logic.go:42-58, 73-80. *)
Definition quant_string (q : quant) : string :=
  match q with
  | QThe => "ι" | QLambda => "λ" | QEach => "∀" | QAll => "Λ" | QSome => "∃" | QNone => "∄"
  | QHi => "¿" | QUnset => ""
  end.
Definition conn_string (c : conn) : string := match c with KAnd => "∧" | KOr => "∨" | KRi => "?" end.

(** string.go:65-67, isBinOp, for the Name. *)
Definition is_bin_op (name : string) : bool := String.eqb name "=" || String.eqb name "≺".

(** string.go:182-192, leftPredication: the predicate of the predication; [Ok None] is
    nil. *)
Fixpoint left_predication (h : heap) (fuel : nat) (st : option ref) : res (option ref) :=
  match fuel, st with
  | O, _ => NoFuel
  | _, None => Ok None
  | S f, Some r =>
      match nth_error h r with
      | Some (CPredication p _) => Ok (Some p)
      | Some (CConnection _ l _) => left_predication h f (Some l)
      | _ => Ok None
      end
  end.

(** string.go:194-207, leftPred: the name. *)
Fixpoint left_pred (h : heap) (fuel : nat) (p : ref) : res (option string) :=
  match fuel with
  | O => NoFuel
  | S f =>
      match nth_error h p with
      | Some (CPred name) => Ok (Some name)
      | Some (CSerial l r) =>
          o <- left_pred h f l ;;
          match o with
          | Some name => if String.eqb name "shi" then left_pred h f r else Ok o
          | None => Ok None
          end
      | _ => Ok None
      end
  end.

(** string.go:166-180, varRune, for the Def field. *)
Definition var_rune (U : unicode) (h : heap) (fuel : nat) (def : option ref) : res string :=
  match def with
  | None => Ok "U"
  | Some d =>
      match nth_error h d with
      | Some (CBinding _ _ _ rs _) =>
          o <- left_predication h fuel rs ;;
          match o with
          | None => Ok "X"
          | Some p =>
              n <- left_pred h fuel p ;;
              match n with
              | None => Ok "X"
              | Some name =>
                  if is_bin_op name then Ok "X"
                  else Ok (to_upper U (stake (snd (decode_rune name)) name))
              end
          end
      | _ => Panic PRuntime
      end
  end.

(** string.go:111-125: the distinct numbers of the variables visited, each with its rune,
    in order of first occurrence.  The keys of the map runes are the second components,
    runes[r] is the numbers with the second component r. *)
Fixpoint var_runes (U : unicode) (h : heap) (fuel : nat) (l : list ref) (seen : list (nat * string)) : res (list (nat * string)) :=
  match l with
  | [] => Ok seen
  | r :: l' =>
      match nth_error h r with
      | Some (CVariable n def _) =>
          if existsb (fun p => fst p =? n) seen then var_runes U h fuel l' seen
          else x <- var_rune U h fuel def ;; var_runes U h fuel l' (seen ++ [(n, x)])
      | _ => var_runes U h fuel l' seen
      end
  end.
Definition numbers (seen : list (nat * string)) (r : string) : list nat :=
  map fst (filter (fun p => String.eqb (snd p) r) seen).

(** string.go:135-149, one iteration of the loop over the map runes: the assignments to
    varNames. *)
Fixpoint indexed (r : string) (i : nat) (vs : list nat) : list (nat * string) :=
  match vs with [] => [] | v :: vs' => (v, (r ++ itoa i)%string) :: indexed r (S i) vs' end.
Definition name_assignments (r : string) (vs : list nat) : list (nat * string) :=
  match String.eqb r "X", vs with
  | true, [v0; v1; v2] => [(v2, "Z"); (v1, "Y"); (v0, "X")]
  | true, [v0; v1] => [(v1, "Y"); (v0, "X")]
  | _, [v0] => [(v0, r)]
  | _, _ => indexed r 0 vs
  end.

(** The loop, over the keys in the order in which the map happens to give them.  An index
    out of range panics. *)
Fixpoint assign_names (l : list (nat * string)) (names : list string) : res (list string) :=
  match l with
  | [] => Ok names
  | (v, s) :: l' => if v <? length names then assign_names l' (set_nth v s names) else Panic PRuntime
  end.
Definition var_names (keys : list string) (seen : list (nat * string)) : res (list string) :=
  assign_names (flat_map (fun r => name_assignments r (numbers seen r)) keys) (repeat "" (length seen)).

(** string.go:270-280, mathItalicCapitalLetters. *)
Definition math_italic (s : string) : string :=
  of_runes (map (fun r => if in_range 65 90 r then (r - 65 + 0x1D434)%N else r) (runes s)).

Section Print.

(** printer.pretty and printer.varNames; [None] is nil. *)
Variable pretty : bool.
Variable names : option (list string).
Variable h : heap.

(** string.go:219-238, the cases of write for a quantifier and a variable. *)
Definition show_quant (q : quant) : string :=
  match q with QThe => if pretty then "℩" else "ι" | _ => quant_string q end.
Definition show_var (v : nat) : string :=
  let n := match names with
           | Some l => match nth_error l v with Some s => s | None => ("X" ++ itoa v)%string end
           | None => ("X" ++ itoa v)%string
           end in
  if pretty then math_italic n else n.

(** string.go:46-56, parens: whether they are needed. *)
Definition parens (c : conn) (arg : cell) : bool :=
  match arg with
  | CPredication _ _ => false
  | CConnection c' _ _ => negb (String.eqb (conn_string c') (conn_string c))
  | _ => true
  end.

Section Arguments.
Context (f : ref -> res string).
(** string.go:251-268, writeArguments. *)
Fixpoint show_args (l : list (option ref)) : res string :=
  match l with
  | [] => Ok ""
  | a :: l' =>
      s <- match a with None => Ok "·" | Some x => f x end ;;
      t <- show_args l' ;;
      Ok (s ++ match l' with [] => "" | _ => ", " end ++ t)%string
  end.
End Arguments.

(** The print methods, string.go:33-98; a nil node writes nothing. *)
Definition show_opt (f : ref -> res string) (o : option ref) : res string :=
  match o with None => Ok "" | Some r => f r end.
Fixpoint show (fuel : nat) (r : ref) : res string :=
  match fuel with
  | O => NoFuel
  | S f =>
      match nth_error h r with
      | None => Panic PRuntime
      | Some (CBinding q n _ None sc) =>                            (* 33-38 *)
          s <- show_opt (show f) sc ;;
          Ok (show_quant q ++ show_var n ++ " " ++ s)%string
      | Some (CBinding q n _ (Some rs) sc) =>
          a <- show f rs ;; s <- show_opt (show f) sc ;;
          Ok ("[" ++ show_quant q ++ show_var n ++ " : " ++ a ++ "] " ++ s)%string
      | Some (CConnection c x y) =>                                 (* 40-44 *)
          match nth_error h x, nth_error h y with
          | Some cx, Some cy =>
              a <- show f x ;; b <- show f y ;;
              let wrap p s := if (p : bool) then ("(" ++ s ++ ")")%string else s in
              Ok (wrap (parens c cx) a ++ " " ++ conn_string c ++ " " ++ wrap (parens c cy) b)%string
          | _, _ => Panic PRuntime
          end
      | Some (CPredication p args) =>                               (* 58-63 *)
          match nth_error h p, args with
          | Some (CPred name), [x; y] =>
              if is_bin_op name then
                a <- show_opt (show f) x ;; b <- show_opt (show f) y ;; Ok (a ++ name ++ b)%string
              else a <- show_args (show f) args ;; Ok (name ++ "(" ++ a ++ ")")%string
          | _, _ =>
              n <- show f p ;; a <- show_args (show f) args ;; Ok (n ++ "(" ++ a ++ ")")%string
          end
      | Some (CVariable n _ _) => Ok (show_var n)                   (* 69-71 *)
      | Some (CPlurality args) => a <- show_args (show f) args ;; Ok ("⌊" ++ a ++ "⌉")%string (* 73-75 *)
      | Some (CQuote t full) =>                                     (* 77-82 *)
          Ok (if full then "«" ++ t ++ "»" else "‹" ++ t ++ "›")%string
      | Some (CPred name) => Ok name                                (* 84-86 *)
      | Some (CAbstraction x) => a <- show f x ;; Ok ("{" ++ a ++ "}")%string (* 88-90 *)
      | Some (CSerial x y) => a <- show f x ;; b <- show f y ;; Ok (a ++ "∘" ++ b)%string (* 92-94 *)
      | Some (CSwap p _) => a <- show f p ;; Ok ("(mu " ++ a ++ ")")%string (* 96-98 *)
      end
  end.

End Print.

(** string.go:107-164, print.  [keys] gives the order of a range over a map that has the
    given keys. *)
Definition max_number (seen : list (nat * string)) : nat := fold_left (fun m p => Nat.max m (fst p)) seen 0.
Definition print (U : unicode) (keys : list string -> list string) (pretty : bool) (fuel : nat) (t : option (ref * heap)) : res string :=
  match t with
  | None => Ok ""
  | Some (r, h) =>
      l <- visited h fuel r ;;
      seen <- var_runes U h fuel l [] ;;
      if negb (match seen with [] => true | _ => false end) && (length seen <=? max_number seen) then
        show pretty None h fuel r
      else
        names <- var_names (keys (nodup string_dec (map snd seen))) seen ;;
        s <- show pretty (Some names) h fuel r ;;
        Ok (s ++ ".")%string
  end.

(** string.go:12-18, String, and 25-31, PrettyString, with the keys in order of first
    occurrence (C31: the order does not matter). *)
Definition string_ (U : unicode) := print U (fun ks => ks) false.
Definition pretty_string (U : unicode) := print U (fun ks => ks) true.
