(** Properties of package tone: C01-C08. *)

From Coq Require Import String Ascii NArith List Permutation.
From Verif Require Import Base Utf8 Tone ToneSpec ToneFacts.
Import ListNotations.
Open Scope string_scope.
Open Scope list_scope.
Open Scope N_scope.

(** C01.  However the runtime orders the iterations that build the three derived
    tables, every function of the package returns the same result. *)
Theorem C01_map_order_irrelevant :
  forall d1 d2 d3,
    reordered diacritic d1 -> reordered diacritic d2 -> reordered diacritic d3 ->
    forall s t,
      to_ascii_with (build d1 d2 d3) s = to_ascii s /\
      strip_with (build d1 d2 d3) s = strip s /\
      with_tone_with (build d1 d2 d3) s t = with_tone s t /\
      tone_with (build d1 d2 d3) s = tone s.
Proof. exact map_order_irrelevant. Qed.
Print Assumptions C01_map_order_irrelevant.

(** Reversing the rows is such an order, and changes the tables. *)
Example C01_reversal : reordered diacritic (rev diacritic).
Proof.
  exists (rev diacritic). split; [apply Permutation_rev|].
  generalize (rev diacritic). induction l; constructor; auto.
Qed.
Example C01_tables_differ :
  tb_tone (build (rev diacritic) diacritic diacritic) <> tb_tone tables0.
Proof. vm_compute. discriminate. Qed.

(** C02.  Not true as stated: the second of two toned vowels of one syllable stays. *)
Theorem C02_to_ascii_ascii_refuted :
  exists s, Forall toaq_rune (runes s) /\ ~ all_ascii (to_ascii s).
Proof. exact to_ascii_not_ascii. Qed.
Print Assumptions C02_to_ascii_ascii_refuted.

(** The exact condition on Toaq text: the output is ASCII iff any two toned vowels
    are separated by a rune which is neither a vowel nor 'q'. *)
Theorem C02_to_ascii_ascii_partial :
  forall s, Forall toaq_rune (runes s) ->
    (all_ascii (to_ascii s) <-> separated (runes s)).
Proof. exact to_ascii_ascii_iff. Qed.
Print Assumptions C02_to_ascii_ascii_partial.

Example C02_witness : to_ascii "áá" = "aá/".
Proof. vm_compute. reflexivity. Qed.
Example C02_positive : to_ascii "pójījī" = "po/ji-ji-".
Proof. vm_compute. reflexivity. Qed.

(** C03. *)
Theorem C03_to_ascii_identity : forall s, all_ascii s -> to_ascii s = s.
Proof. exact to_ascii_id. Qed.
Print Assumptions C03_to_ascii_identity.

Theorem C03_to_ascii_idempotent :
  forall s, all_ascii (to_ascii s) -> to_ascii (to_ascii s) = to_ascii s.
Proof. exact (fun s => to_ascii_id (to_ascii s)). Qed.
Print Assumptions C03_to_ascii_idempotent.

Example C03_case : all_ascii "hoi? V/" /\ to_ascii (to_ascii "hảı") = "hai?".
Proof. vm_compute. repeat constructor. Qed.

(** C04.  The result has no tone marker, and is what remains of ToASCII after
    deleting the marker bytes. *)
Theorem C04_strip_no_marker :
  forall s c, In c (list_ascii_of_string (strip s)) ->
    ~ In c (list_ascii_of_string "-/V?^\~").
Proof. exact strip_no_marker. Qed.
Print Assumptions C04_strip_no_marker.

Theorem C04_strip_exact :
  forall s, list_ascii_of_string (strip s) =
    filter (fun c => if in_dec ascii_dec c (list_ascii_of_string "-/V?^\~") then false else true)
      (list_ascii_of_string (to_ascii s)).
Proof. exact strip_exact. Qed.
Print Assumptions C04_strip_exact.

Example C04_case : strip "pójījī" = "pojiji" /\ strip "Vo?" = "o".
Proof. vm_compute. auto. Qed.

(** C05.  More than was asked: markers after the first vowel do no harm. *)
Theorem C05_tone_with_tone :
  forall s t pre v post,
    runes s = pre ++ v :: post -> vowel v ->
    Forall (fun r => ~ vowel r /\ ~ marker r) pre ->
    marker t ->
    exists s', with_tone s t = Ok s' /\ tone s' = t.
Proof. exact tone_with_tone. Qed.
Print Assumptions C05_tone_with_tone.

Example C05_case :
  with_tone "hảıq/" (rune_of "^") = Ok "hâıq/" /\ tone "hâıq/" = rune_of "^".
Proof. vm_compute. auto. Qed.
(** The condition on the prefix is needed. *)
Example C05_prefix_needed :
  with_tone "/a" (rune_of "^") = Ok "/â" /\ tone "/â" = rune_of "/".
Proof. vm_compute. auto. Qed.

(** C06. *)
Theorem C06_only_first_vowel :
  forall s t s', with_tone s t = Ok s' ->
    (Forall (fun r => ~ vowel r) (runes s) /\ s' = s) \/
    (exists p v v' q,
       s = (p ++ encode_rune v ++ q)%string /\ s' = (p ++ encode_rune v' ++ q)%string /\
       vowel v /\ vowel v' /\ (t <> 0 -> toned_as v' t) /\
       Forall (fun r => ~ vowel r) (runes p)).
Proof. exact with_tone_change. Qed.
Print Assumptions C06_only_first_vowel.

Theorem C06_last_wins :
  forall s t1 t2 s1, with_tone s t1 = Ok s1 -> with_tone s1 t2 = with_tone s t2.
Proof. exact with_tone_last_wins. Qed.
Print Assumptions C06_last_wins.

Example C06_case :
  with_tone "rıa" (rune_of "V") = Ok "rǐa" /\ with_tone "rǐa" 0 = Ok "rıa" /\
  with_tone "rkTk" (rune_of "V") = Ok "rkTk".
Proof. vm_compute. auto. Qed.

(** C07. *)
Theorem C07_with_tone_panics :
  forall s t,
    with_tone s t = Panic PRuntime <->
    (exists r, In r (runes s) /\ vowel r) /\ t <> no_tone /\ ~ marker t.
Proof. exact with_tone_panic_iff. Qed.
Print Assumptions C07_with_tone_panics.

Theorem C07_with_tone_returns :
  forall s t, t = no_tone \/ marker t -> exists s', with_tone s t = Ok s'.
Proof. exact with_tone_total. Qed.
Print Assumptions C07_with_tone_returns.

Example C07_case : with_tone "da" (rune_of "x") = Panic PRuntime /\
                   with_tone "d" (rune_of "x") = Ok "d".
Proof. vm_compute. auto. Qed.

(** C08.  Not true: an untoned first syllable is skipped. *)
Theorem C08_tone_first_syllable_refuted :
  exists c1 v1 c2 v2 t,
    separator c1 /\ plain_vowel v1 /\ separator c2 /\ toned_as v2 t /\
    tone (of_runes [c1; v1; c2; v2]) = t /\ t <> no_tone.
Proof. exact tone_skips_untoned. Qed.
Print Assumptions C08_tone_first_syllable_refuted.

(** What Tone computes for every string: the tone of the first rune that is a
    marker or a toned vowel, or None if there is no such rune.  In particular it
    is the tone of the first syllable whenever that syllable has one. *)
Theorem C08_tone_first_marked_partial :
  forall s,
    (tone s = no_tone /\ forall r, In r (runes s) -> ~ marker r /\ ~ toned r) \/
    (exists pre r post, runes s = pre ++ r :: post /\
       (forall x, In x pre -> ~ marker x /\ ~ toned x) /\
       ((marker r /\ tone s = r) \/ toned_as r (tone s))).
Proof. exact tone_first_marked. Qed.
Print Assumptions C08_tone_first_marked_partial.

Example C08_case : tone "dodó" = rune_of "/" /\ tone "hảıdó" = rune_of "?".
Proof. vm_compute. auto. Qed.
