(** Case and the results of Text. *)

From Coq Require Import String Ascii NArith ZArith PArith List Bool Lia Arith.
From Verif Require Import Base Utf8 Utf8Facts PegSyntax Grammar Peg TreeSpec Ast Parser ParserSpec ApiFacts SortApi LogicWords App AppSpec AppApi LateDigit LateFacts LateApi LateEnds CaseFold CaseFacts.
Import ListNotations.
Open Scope nat_scope.

Lemma runes_small_fuel f : forall s, runes_fuel f (small s) = map small_rune (runes_fuel f s).
Proof.
  induction f as [|f IH]; intros s; [reflexivity|]. destruct s as [|a s]; [reflexivity|]. cbn [runes_fuel].
  change (small (String a s)) with (String (small_byte a) (small s)). cbn [runes_fuel].
  change (String (small_byte a) (small s)) with (small (String a s)). rewrite decode_small.
  destruct (decode_rune (String a s)) as [r w]. cbn [fst snd map]. rewrite <- small_sdrop, IH. reflexivity.
Qed.
Lemma runes_small s : runes (small s) = map small_rune (runes s).
Proof. unfold runes. rewrite small_length. apply runes_small_fuel. Qed.
Lemma plain_small r : plain_letter (small_rune r) = plain_letter r.
Proof.
  unfold small_rune. destruct ((65 <=? r) && (r <=? 90))%N eqn:E; cbn [andb]; [|reflexivity].
  apply andb_prop in E. destruct E as [A B]. apply N.leb_le in A, B.
  assert (I : In r upper_letters). { unfold upper_letters. apply in_map_iff. exists (N.to_nat (r - 65)). split; [lia|]. apply in_seq. lia. }
  assert (X : forallb (fun r => Bool.eqb (plain_letter (if negb (r =? 86)%N then (r + 32)%N else r)) (plain_letter r)) upper_letters = true) by (vm_compute; reflexivity).
  rewrite forallb_forall in X. apply eqb_prop, X, I.
Qed.
Lemma digit_small r : tone_digit (small_rune r) = tone_digit r.
Proof.
  unfold small_rune. destruct ((65 <=? r) && (r <=? 90))%N eqn:E; cbn [andb]; [|reflexivity]. destruct (negb (r =? 86)%N); [|reflexivity].
  apply andb_prop in E. destruct E as [A B]. apply N.leb_le in A, B. unfold tone_digit.
  destruct (N.leb_spec r 55); [lia|]. destruct (N.leb_spec (r + 32) 55); [lia|]. rewrite !andb_false_r. reflexivity.
Qed.
Lemma late_small s t : small s = small t -> late_digit s -> late_digit t.
Proof.
  intros E (x & a & b & d & y & R & A & B & D).
  assert (M : map small_rune (runes t) = map small_rune (x ++ a :: b :: d :: y)) by (rewrite <- R, <- !runes_small, E; reflexivity).
  rewrite map_app in M. apply map_eq_app in M. destruct M as (x' & r' & T & _ & M). cbn [map] in M.
  destruct r' as [|a' [|b' [|d' y']]]; try discriminate M. injection M as Ma Mb Md _.
  exists x', a', b', d', y'. split; [exact T|]. rewrite <- (plain_small a'), <- (plain_small b'), <- (digit_small d'), Ma, Mb, Md, !plain_small, digit_small. auto.
Qed.

Lemma text_error is_punct x e : fst (text_of is_punct (new_parser x)) = Ok (Err e) <-> fst (tree is_punct (new_parser x)) = Ok (Err e).
Proof.
  unfold text_of, tree. destruct (parse is_punct r_full_text 0 (new_parser x)) as [[[e'|]|q|] p1]; [cbn; split; congruence| |cbn; split; discriminate|cbn; split; discriminate].
  destruct (Action.action_of _ _ _ _ _ _ _ _) as [[[| |? []] a]|], (node_of _ _ _ _ _ _ _ _) as [[? ?]|]; cbn; (split; let H := fresh in intro H; discriminate H).
Qed.

(** Text accepts, fails and panics on the same texts up to case. *)
Theorem texts_same is_punct : punct_no_letter is_punct -> punct_plain is_punct -> forall t u, small t = small u ->
  match fst (text_of is_punct (new_parser t)), fst (text_of is_punct (new_parser u)) with
  | Ok (Got (Some _)), Ok (Got (Some _)) => True
  | Ok (Err e), Ok (Err e') => pe_tree e = pe_tree e' /\ pe_loc e = pe_loc e' /\ small (pe_msg e) = small (pe_msg e')
  | Panic q, Panic q' => q = q'
  | _, _ => False
  end.
Proof.
  intros Hl Hp t u Hs. pose proof (trees_same is_punct Hl t u Hs) as S.
  destruct (three is_punct Hp ascii_unicode t) as [(e & T)|(n & T & D)], (three is_punct Hp ascii_unicode u) as [(e' & T')|(n' & T' & D')]; rewrite T, T' in S; cbn in S; try contradiction.
  - apply text_error in T, T'. rewrite T, T'. exact S.
  - injection S as S. assert (E : small (p_text n) = small (p_text n')) by (destruct n, n'; injection S; auto).
    destruct D as [[L X]|[L (v & X)]], D' as [[L' X']|[L' (v' & X')]]; rewrite X, X'; auto.
    + contradiction L'. apply (late_small _ _ E L).
    + contradiction L. apply (late_small _ _ (eq_sym E) L').
Qed.

(** Whatever else was called before, Tree succeeds on the one where it does on the other. *)
Theorem reached_same is_punct : punct_no_letter is_punct -> forall t u, small t = small u ->
  forall p q n, reach is_punct t p -> reach is_punct u q -> fst (tree is_punct p) = Ok (Got (Some n)) ->
  exists m, fst (tree is_punct q) = Ok (Got (Some m)) /\ small_tree n = small_tree m.
Proof.
  intros Hl t u Hs p q n R R' T. pose proof (trees_same is_punct Hl t u Hs) as S.
  pose proof (proj1 (history is_punct t p (new_parser t) R (RNew _ _))) as H. pose proof (proj1 (history is_punct u q (new_parser u) R' (RNew _ _))) as H'.
  rewrite T in H. destruct (fst (tree is_punct (new_parser t))) as [[x|e]|z|]; cbn in H; try contradiction. subst x.
  destruct (fst (tree is_punct (new_parser u))) as [[[m|]|e]|z|]; cbn in S; try contradiction; try discriminate S. injection S as S.
  destruct (fst (tree is_punct q)) as [[x|e]|z|]; cbn in H'; try contradiction. subst x. eauto.
Qed.

Lemma ascii_no_letter : punct_no_letter ascii_punct.
Proof.
  assert (X : forallb (fun r => negb (letter r)) (map (fun c => N_of_ascii c) (list_ascii_of_string "!""#%&'()*,-./:;?@[\]_{}")) = true) by (vm_compute; reflexivity).
  intros r H. unfold ascii_punct in H. apply mem_rune_In in H. rewrite forallb_forall in X. specialize (X r H). apply negb_true_iff in X.
  unfold letter in X. apply orb_false_iff in X. destruct X as [A B]. apply andb_false_iff in A, B.
  split; intros [C D]; [destruct A as [A1|A1]|destruct B as [A1|A1]]; apply N.leb_gt in A1; lia.
Qed.

Lemma case_case :
  small "Jai/ JI/" = small "jai/ ji/" /\ "Jai/ JI/" <> "jai/ ji/" /\
  (exists n, fst (tree ascii_punct (new_parser "Jai/ JI/")) = Ok (Got (Some n))) /\
  (exists e, fst (tree ascii_punct (new_parser "JaiV gi")) = Ok (Err e)).
Proof.
  split; [vm_compute; reflexivity|]. split; [discriminate|].
  assert (X : match fst (tree ascii_punct (new_parser "Jai/ JI/")) with Ok (Got (Some _)) => true | _ => false end = true) by (vm_compute; reflexivity).
  assert (Y : match fst (tree ascii_punct (new_parser "JaiV gi")) with Ok (Err _) => true | _ => false end = true) by (vm_compute; reflexivity).
  split; [clear Y; destruct (fst (tree _ (new_parser "Jai/ JI/"))) as [[[n|]|e]|z|]; try discriminate X; exists n; reflexivity|clear X; destruct (fst (tree _ (new_parser "JaiV gi"))) as [[[n|]|e]|z|]; try discriminate Y; exists e; reflexivity].
Qed.

Theorem trees_agree is_punct : punct_no_letter is_punct -> punct_plain is_punct -> forall t u, small t = small u ->
  match fst (tree is_punct (new_parser t)), fst (tree is_punct (new_parser u)) with
  | Ok (Got (Some n)), Ok (Got (Some m)) => small_tree n = small_tree m
  | Ok (Err e), Ok (Err e') => pe_tree e = pe_tree e' /\ pe_loc e = pe_loc e' /\ small (pe_msg e) = small (pe_msg e')
  | _, _ => False
  end.
Proof.
  intros Hl Hp t u Hs. pose proof (trees_same is_punct Hl t u Hs) as S.
  destruct (three is_punct Hp ascii_unicode t) as [(e & T)|(n & T & D)], (three is_punct Hp ascii_unicode u) as [(e' & T')|(n' & T' & D')]; rewrite T, T' in S |- *; cbn in S; try contradiction; [exact S|].
  injection S as S. exact S.
Qed.
(** V is a tone sign, v is nothing. *)
Lemma capital_v :
  (exists n, fst (tree ascii_punct (new_parser "gi? ji/ jaiV")) = Ok (Got (Some n))) /\
  (exists e, fst (tree ascii_punct (new_parser "gi? ji/ jaiv")) = Ok (Err e)).
Proof.
  assert (X : match fst (tree ascii_punct (new_parser "gi? ji/ jaiV")) with Ok (Got (Some _)) => true | _ => false end = true) by (vm_compute; reflexivity).
  assert (Y : match fst (tree ascii_punct (new_parser "gi? ji/ jaiv")) with Ok (Err _) => true | _ => false end = true) by (vm_compute; reflexivity).
  split; [clear Y; destruct (fst (tree _ (new_parser "gi? ji/ jaiV"))) as [[[n|]|e]|z|]; try discriminate X; exists n; reflexivity|clear X; destruct (fst (tree _ (new_parser "gi? ji/ jaiv"))) as [[[n|]|e]|z|]; try discriminate Y; exists e; reflexivity].
Qed.

Lemma shouted : small "Gi? JI/ JAIV ji/" = small "gi? ji/ jaiV ji/" /\
  (exists n, fst (text_of ascii_punct (new_parser "Gi? JI/ JAIV ji/")) = Ok (Got (Some n))) /\
  fst (text_of ascii_punct (new_parser "JAI4 ji/")) = Panic PRuntime.
Proof. split; [vm_compute; reflexivity|]. split; [|vm_compute; reflexivity].
  assert (X : match fst (text_of ascii_punct (new_parser "Gi? JI/ JAIV ji/")) with Ok (Got (Some _)) => true | _ => false end = true) by (vm_compute; reflexivity).
  destruct (fst (text_of _ _)) as [[[n|]|e]|z|]; try discriminate X. exists n. reflexivity.
Qed.
