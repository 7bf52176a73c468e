(** Properties of dict.Load (C09, C10) and peg.Location (C17). *)

From Coq Require Import String NArith ZArith List.
From Verif Require Import Base Utf8 Tone Dict DictFacts Loc LocSpec LocFacts.
Import ListNotations.
Open Scope string_scope.
Open Scope list_scope.

(** C09.  The map holds, for each key, the last entry with that normalised word
    (definition, author and score unchanged, Word field replaced by the key), and
    nothing else.  [tl] stands for strings.ToLower. *)
Theorem C09_last_entry_wins :
  forall (tl : string -> string) r es m,
    entries r = Some es -> load tl r = Ok (LMap m) ->
    forall k w, slookup k m = Some w <->
      exists pre e post, es = pre ++ e :: post /\ tl (strip (dw_word e)) = k /\
        (forall e', In e' post -> tl (strip (dw_word e')) <> k) /\
        w = DWord k (dw_def e) (dw_by e) (dw_score e).
Proof. exact load_entries. Qed.
Print Assumptions C09_last_entry_wins.

Theorem C09_keys :
  forall (tl : string -> string) r es m,
    entries r = Some es -> load tl r = Ok (LMap m) ->
    forall k, (exists w, slookup k m = Some w) <->
      exists e, In e es /\ tl (strip (dw_word e)) = k.
Proof. exact load_keys. Qed.
Print Assumptions C09_keys.

Example C09_case :
  let r := Response true (Some [DWord "dó" "old" "x" 1; DWord "do" "new" "y" 2]) None in
  exists m, load (fun s => s) r = Ok (LMap m) /\ slookup "do" m = Some (DWord "do" "new" "y" 2).
Proof. eexists. split; vm_compute; reflexivity. Qed.

(** C10.  Not true: a response without the field the code dereferences crashes. *)
Theorem C10_load_total_refuted :
  forall tl : string -> string, exists r, load tl r = Panic PRuntime.
Proof. exact load_can_panic. Qed.
Print Assumptions C10_load_total_refuted.

(** Exactly these responses crash; every other response gives a map or an error. *)
Theorem C10_load_panic_partial :
  forall (tl : string -> string) r,
    (load tl r = Panic PRuntime <->
     (success r = true /\ entries r = None) \/ (success r = false /\ error r = None)) /\
    (load tl r <> Panic PRuntime -> exists v, load tl r = Ok v).
Proof. exact load_panic_exact. Qed.
Print Assumptions C10_load_panic_partial.

(** C17. *)
Theorem C17_location_terminates :
  forall text b,
    (exists n l, location_in n text b = Some l) <-> b <= String.length text.
Proof. exact location_terminates. Qed.
Print Assumptions C17_location_terminates.

Theorem C17_location_counts :
  forall n text b l,
    b <= String.length text -> location_in n text b = Some l ->
    l_rune l = length (runes_before text b) /\
    l_line l = line_of (runes_before text b) /\
    column_is (runes_before text b) (l_column l) /\
    b <= l_byte l <= String.length text.
Proof. exact location_spec. Qed.
Print Assumptions C17_location_counts.

Example C17_case :
  location ("hó" ++ String (Ascii.ascii_of_nat 10) "da jí")%string 6 = Some (Loc 6 5 2 3).
Proof. vm_compute. reflexivity. Qed.
