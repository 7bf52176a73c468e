(** How the words of a tree are spelled in the text. *)

From Coq Require Import String NArith List.
From Verif Require Import Base Utf8 PegSyntax Peg Ast VisitSpec TileSpec.
Import ListNotations.

(** The vowels with a tone: the character, its letter, and the ASCII sign of the tone; i is
    written without a dot.  For the tone V there are two characters per letter, with a
    caron and with a breve. *)
Definition toned_vowels : list (N * N * N) :=
  [ (257, 97, 45); (256, 65, 45); (363, 117, 45); (362, 85, 45); (299, 305, 45);
    (298, 73, 45); (333, 111, 45); (332, 79, 45); (275, 101, 45); (274, 69, 45);
    (225, 97, 47); (193, 65, 47); (250, 117, 47); (218, 85, 47); (237, 305, 47);
    (205, 73, 47); (243, 111, 47); (211, 79, 47); (233, 101, 47); (201, 69, 47);
    (462, 97, 86); (259, 97, 86); (461, 65, 86); (258, 65, 86); (468, 117, 86);
    (365, 117, 86); (467, 85, 86); (364, 85, 86); (464, 305, 86); (301, 305, 86);
    (463, 73, 86); (300, 73, 86); (466, 111, 86); (335, 111, 86); (465, 79, 86);
    (334, 79, 86); (283, 101, 86); (277, 101, 86); (282, 69, 86); (276, 69, 86);
    (7843, 97, 63); (7842, 65, 63); (7911, 117, 63); (7910, 85, 63); (7881, 305, 63);
    (7880, 73, 63); (7887, 111, 63); (7886, 79, 63); (7867, 101, 63); (7866, 69, 63);
    (226, 97, 94); (194, 65, 94); (251, 117, 94); (219, 85, 94); (238, 305, 94);
    (206, 73, 94); (244, 111, 94); (212, 79, 94); (234, 101, 94); (202, 69, 94);
    (224, 97, 92); (192, 65, 92); (249, 117, 92); (217, 85, 92); (236, 305, 92);
    (204, 73, 92); (242, 111, 92); (210, 79, 92); (232, 101, 92); (200, 69, 92);
    (227, 97, 126); (195, 65, 126); (361, 117, 126); (360, 85, 126); (297, 305, 126);
    (296, 73, 126); (245, 111, 126); (213, 79, 126); (7869, 101, 126); (7868, 69, 126) ]%N.

(** The signs that stand after a vowel or a syllable: ASCII signs, digits and combining
    characters. *)
Definition signs : list (N * N) :=
  [ (45, 45); (49, 45); (772, 45); (47, 47); (50, 47); (769, 47); (86, 86); (51, 86); (780, 86); (774, 86);
    (63, 63); (52, 63); (777, 63); (94, 94); (53, 94); (770, 94); (92, 92); (54, 92); (768, 92);
    (126, 126); (55, 126); (771, 126) ]%N.

Definition find_toned (r : N) : option (N * N * N) := find (fun x => N.eqb (fst (fst x)) r) toned_vowels.
Definition find_sign (r : N) : option (N * N) := find (fun x => N.eqb (fst x) r) signs.

(** The letter and the tone of a character. *)
Definition letter_of (r : N) : list N :=
  match find_toned r, find_sign r with
  | Some (_, l, _), _ => [l]
  | None, Some _ => []
  | None, None => [if N.eqb r 105 then 305%N else r]
  end.
Definition tone_of (r : N) : list N :=
  match find_toned r, find_sign r with
  | Some (_, _, t), _ => [t]
  | None, Some (_, t) => [t]
  | None, None => []
  end.

Definition letters (s : string) : list N := flat_map letter_of (runes s).
Definition tones (s : string) : list N := flat_map tone_of (runes s).

(** No signs and no dotted i. *)
Definition normal_rune (r : N) : bool := match find_sign r with Some _ => false | None => negb (N.eqb r 105) end.
Definition normal (s : string) : Prop := Forall (fun r => normal_rune r = true) (runes s).

(** Separators: white space, the five signs of toaq.peggy:549, question marks, other
    punctuation. *)
Definition separator (is_punct : N -> bool) (s : string) : Prop :=
  Forall (fun r => In r [9; 10; 13; 32; 46; 44; 58; 33; 63]%N \/ is_punct r = true) (runes s).

(** A word is a separator as it stands in the text, or has the letters and the tones of its
    part of the text, with every tone on its vowel. *)
Definition word_spelled (is_punct : N -> bool) (text : string) (t : token) : Prop :=
  let s := slice text (t_s t) (t_e t) in
  (t_text t = s /\ separator is_punct s) \/
  (letters (t_text t) = letters s /\ tones (t_text t) = tones s /\ normal (t_text t)).
