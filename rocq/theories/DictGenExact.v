(** The generated file declares nothing but the dictionary only if no quoted string contains
    "dict.". *)

From Coq Require Import Permutation Ascii String List Bool Arith NArith ZArith Lia.
From Verif Require Import Base Utf8 Utf8Facts Tone Dict DictFacts DictGen DictRead DictGenFacts DictGenEnd.
Import ListNotations.
Open Scope list_scope.
Open Scope nat_scope.
Open Scope string_scope.

(** ** Dots *)

Fixpoint dots (s : string) : nat := match s with "" => 0 | String a t => (if Ascii.eqb a "." then 1 else 0) + dots t end.
Lemma dots_app x y : dots (x ++ y) = dots x + dots y.
Proof. induction x as [|a x IH]; [reflexivity|]. cbn. rewrite IH. lia. Qed.
Lemma no_dots x : no_char "." x = true -> dots x = 0.
Proof. induction x as [|a x IH]; [reflexivity|]. cbn. destruct (Ascii.eqb a "."); [discriminate|]. exact IH. Qed.
Lemma erase_at r : erased ("dict." ++ r) = erased r.
Proof. cbn [append erase]. replace (String.prefix "dict." (String "d" (String "i" (String "c" (String "t" (String "." r)))))) with true; [reflexivity|]. cbn. destruct r; reflexivity. Qed.
Lemma erase_else a t : String.prefix "dict." (String a t) = false -> erased (String a t) = String a (erased t).
Proof. intros E. cbn [erase]. rewrite E. reflexivity. Qed.
Lemma dots_erase : forall n s, String.length s <= n -> dots (erased s) <= dots s /\ (occurs "dict." s -> dots (erased s) < dots s).
Proof.
  induction n as [|n IH]; intros s L; (destruct s as [|a s]; [split; [reflexivity|intros ([|] & b & E); discriminate]|]); [cbn in L; lia|].
  destruct (String.prefix "dict." (String a s)) eqn:P.
  - destruct (prefix_split _ _ P) as (r & E). rewrite E, erase_at, dots_app. assert (Lr : String.length r <= n) by (apply (f_equal String.length) in E; cbn in E, L; lia). destruct (IH r Lr) as [A _]. change (dots "dict.") with 1. split; [lia|intros _; lia].
  - rewrite erase_else by exact P. cbn [dots]. destruct (IH s) as [A B]; [cbn in L; lia|]. split; [lia|]. intros O. apply occurs_prefix in O as [O|O]; [congruence| |discriminate]. specialize (B O). lia.
Qed.

(** ** Texts between quotes *)

(** The letter of a hexadecimal escape and the number of its digits but the last. *)
Definition heads : list (ascii * nat) := [("x", 1); ("u", 3); ("U", 7)]%char.
Definition singles : list ascii := ["a"; "b"; "f"; "n"; "r"; "t"; "v"; backslash; quote_sign]%char.
(** The last digit counts as a plain character; the digits before it keep it from being a
    dot. *)
Inductive inner : string -> Prop :=
| i_nil : inner ""
| i_plain c t : c <> quote_sign -> c <> backslash -> inner t -> inner (String c t)
| i_single c t : In c singles -> inner t -> inner (String backslash (String c t))
| i_head c k n t : In (c, k) heads -> (n < 16 ^ N.of_nat k)%N -> n <> 2%N -> inner t -> inner (String backslash (String c (hexes k n ++ t))).

Lemma inner_peel e : forall t u rest, no_char quote_sign e = true -> no_char backslash e = true -> inner t -> t ++ String quote_sign u = e ++ rest ->
  exists t', t = e ++ t' /\ inner t' /\ rest = t' ++ String quote_sign u.
Proof.
  induction e as [|a e IH]; intros t u rest N1 N2 I E; [exists t; auto|]. cbn in N1, N2. apply andb_prop in N1 as [A1 N1]. apply andb_prop in N2 as [A2 N2].
  destruct I as [|c t C1 C2 I|c t C I|c k n t C L Nn I]; cbn [append] in E.
  - injection E as <- _. rewrite Ascii.eqb_refl in A1. discriminate.
  - injection E as <- E. destruct (IH _ _ _ N1 N2 I E) as (t' & -> & I' & ->). exists t'. auto.
  - injection E as <- _. rewrite Ascii.eqb_refl in A2. discriminate.
  - injection E as <- _. rewrite Ascii.eqb_refl in A2. discriminate.
Qed.
Lemma digit_small a d : digit_value a = Some d -> (d < 16)%N.
Proof.
  unfold digit_value. destruct (in_range 48 57 (byte_of a)) eqn:E1; [intros [= <-]; apply in_range_spec in E1; lia|]. destruct (in_range 97 102 (byte_of a)) eqn:E2; [intros [= <-]; apply in_range_spec in E2; lia|].
  destruct (in_range 65 70 (byte_of a)) eqn:E3; [intros [= <-]; apply in_range_spec in E3; lia|discriminate].
Qed.
Lemma head_read c k n t u v w : In (c, k) heads -> (n < 16 ^ N.of_nat k)%N -> n <> 2%N -> inner t -> read_escape (String c (hexes k n ++ t ++ String quote_sign u)) = Some (v, w) ->
  exists t', inner t' /\ w = t' ++ String quote_sign u /\ dots v = 0 /\ dots t' <= dots t.
Proof.
  intros C L Nn I E.
  assert (R : forall j m x, j = k + 1 -> read_digits 16 j 0 (hexes k n ++ t ++ String quote_sign u) = Some (m, x) -> exists t' d, inner t' /\ x = t' ++ String quote_sign u /\ dots t' <= dots t /\ (d < 16)%N /\ m = (n * 16 + d)%N).
  { intros j m x -> X. rewrite read_digits_split, read_hexes in X by exact L. rewrite N.mul_0_l, N.add_0_l in X. cbn [read_digits] in X.
    destruct I as [|a t C1 C2 I|a t C1 I|a k' n' t C1 L' Nn' I]; cbn [append] in X; try discriminate.
    destruct (digit_value a) as [d|] eqn:D; [|discriminate]. apply digit_small in D. destruct (d <? 16)%N; [|discriminate]. injection X as <- <-. exists t, d. split; [exact I|]. split; [reflexivity|]. split; [cbn; lia|]. split; [exact D|reflexivity]. }
  assert (Dn : forall d, (d < 16)%N -> (n * 16 + d)%N <> 46%N) by (intros d; lia).
  assert (G : forall x, (if valid_rune x then Some (encode_rune x, w) else None) = Some (v, w) -> x <> 46%N -> dots v = 0).
  { intros x X Nx. destruct (valid_rune x) eqn:V; [|discriminate]. injection X as <-. apply no_dots, (encode_high (fun _ => true)); [exact V|reflexivity|exact Nx]. }
  destruct C as [[= <- <-]|[[= <- <-]|[[= <- <-]|[]]]].
  - cbn [read_escape] in E. change (byte_of "x") with 120%N in E. cbn [N.eqb Pos.eqb] in E. destruct (read_digits 16 2 0 _) as [[m x]|] eqn:X; [|discriminate]. injection E as <- <-. destruct (R 2 _ _ eq_refl X) as (t' & d & I' & -> & Dt & Ld & ->). exists t'. split; [exact I'|]. split; [reflexivity|]. split; [|exact Dt].
    apply no_dots. cbn [no_char]. rewrite andb_true_r. apply negb_true_iff, Ascii.eqb_neq. intros Z. apply (f_equal byte_of) in Z. change (16 ^ N.of_nat 1)%N with 16%N in L. rewrite byte_of_byte in Z by lia. now apply Dn in Z.
  - cbn [read_escape] in E. change (byte_of "u") with 117%N in E. cbn [N.eqb Pos.eqb] in E. destruct (read_digits 16 4 0 _) as [[m x]|] eqn:X; [|discriminate]. destruct (R 4 _ _ eq_refl X) as (t' & d & I' & -> & Dt & Ld & ->). assert (w = t' ++ String quote_sign u) by (destruct (valid_rune _); congruence). subst w. exists t'. split; [exact I'|]. split; [reflexivity|]. split; [eapply G; [exact E|auto]|exact Dt].
  - cbn [read_escape] in E. change (byte_of "U") with 85%N in E. cbn [N.eqb Pos.eqb] in E. destruct (read_digits 16 8 0 _) as [[m x]|] eqn:X; [|discriminate]. destruct (R 8 _ _ eq_refl X) as (t' & d & I' & -> & Dt & Ld & ->). assert (w = t' ++ String quote_sign u) by (destruct (valid_rune _); congruence). subst w. exists t'. split; [exact I'|]. split; [reflexivity|]. split; [eapply G; [exact E|auto]|exact Dt].
Qed.
Lemma single_read c x v w : In c singles -> read_escape (String c x) = Some (v, w) -> w = x /\ dots v = 0.
Proof. intros C E. repeat (destruct C as [<-|C]; [cbn in E; injection E as <- <-; split; reflexivity|]). destruct C. Qed.
Lemma inner_read : forall f t u v w, inner t -> read_string f (t ++ String quote_sign u) = Some (v, w) -> dots v <= dots t /\ w = u.
Proof.
  induction f as [|f IH]; intros t u v w I E; [discriminate|]. destruct I as [|c t C1 C2 I|c t C I|c k n t C L Nn I].
  - cbn in E. injection E as <- <-. split; reflexivity.
  - cbn [append read_string] in E. assert (B1 : (byte_of c =? 34)%N = false). { apply N.eqb_neq. intros Z. apply C1. rewrite <- (byte_byte_of c), Z. reflexivity. }
    assert (B2 : (byte_of c =? 92)%N = false). { apply N.eqb_neq. intros Z. apply C2. rewrite <- (byte_byte_of c), Z. reflexivity. } rewrite B1, B2 in E.
    set (s := String c (t ++ String quote_sign u)) in *. assert (Ne : s <> "") by discriminate. assert (T := width_take s Ne). assert (V := decode_valid s). assert (Sd := stake_sdrop (snd (decode_rune s)) s).
    destruct (decode_rune s) as [r x]. cbn [fst snd] in *. destruct ((x =? 1)%nat && (r =? rune_error)%N); [discriminate|]. specialize (T eq_refl). cbn [orb] in E. destruct (negb (source_rune r)); [discriminate|].
    destruct (read_string f (sdrop x s)) as [[v' w']|] eqn:E'; [|discriminate]. injection E as <- <-. rewrite <- T in *.
    assert (F : r <> 34%N /\ r <> 92%N). { split; intros ->; cbn [encode_rune] in Sd; [change (encode_rune 34) with (String quote_sign "") in Sd|change (encode_rune 92) with (String backslash "") in Sd]; cbn [append] in Sd; unfold s in Sd; injection Sd as Sd _; congruence. }
    destruct (inner_peel (encode_rune r) (String c t) u (sdrop x s)) as (t' & Et & I' & Er); [apply (encode_high (fun _ => true)); [exact V|reflexivity|exact (proj1 F)]|apply (encode_high (fun _ => true)); [exact V|reflexivity|exact (proj2 F)]|now constructor|symmetry; exact Sd|].
    rewrite Er in E'. apply IH in E' as [E' ->]; [|exact I']. split; [|reflexivity]. rewrite Et, !dots_app. lia.
  - change (String backslash (String c t) ++ String quote_sign u) with (String backslash (String c (t ++ String quote_sign u))) in E. cbn [read_string] in E. change (byte_of backslash) with 92%N in E. cbn [N.eqb Pos.eqb] in E.
    destruct (read_escape (String c (t ++ String quote_sign u))) as [[v1 w1]|] eqn:X; [|discriminate]. destruct (single_read _ _ _ _ C X) as [-> D]. destruct (read_string f (t ++ String quote_sign u)) as [[v' w']|] eqn:E'; [|discriminate]. injection E as <- <-. apply IH in E' as [E' ->]; [|exact I]. split; [|reflexivity]. rewrite dots_app, D. cbn. destruct (Ascii.eqb c "."); lia.
  - change (String backslash (String c (hexes k n ++ t)) ++ String quote_sign u) with (String backslash (String c ((hexes k n ++ t) ++ String quote_sign u))) in E. rewrite sapp_assoc in E. cbn [read_string] in E. change (byte_of backslash) with 92%N in E. cbn [N.eqb Pos.eqb] in E.
    destruct (read_escape (String c (hexes k n ++ t ++ String quote_sign u))) as [[v1 w1]|] eqn:X; [|discriminate]. destruct (head_read _ _ _ _ _ _ _ C L Nn I X) as (t' & I' & -> & D & Dt). destruct (read_string f (t' ++ String quote_sign u)) as [[v' w']|] eqn:E'; [|discriminate]. injection E as <- <-. apply IH in E' as [E' ->]; [|exact I']. split; [|reflexivity]. rewrite dots_app, D. cbn [dots]. rewrite dots_app. lia.
Qed.

(** ** What erasing leaves *)

(** Texts in which every hexadecimal escape is complete. *)
Inductive whole : string -> Prop :=
| w_nil : whole ""
| w_plain c t : c <> quote_sign -> c <> backslash -> whole t -> whole (String c t)
| w_single c t : In c singles -> whole t -> whole (String backslash (String c t))
| w_head c k n d t : In (c, k) heads -> (n < 16 ^ N.of_nat k)%N -> n <> 2%N -> (d < 16)%N -> whole t -> whole (String backslash (String c (hexes k n ++ String (lowerhex d) t))).

Lemma whole_app e t : no_char quote_sign e = true -> no_char backslash e = true -> whole t -> whole (e ++ t).
Proof.
  induction e as [|a e IH]; intros N1 N2 W; [exact W|]. cbn in N1, N2. apply andb_prop in N1 as [A1 N1]. apply andb_prop in N2 as [A2 N2]. cbn [append]. constructor; [| |auto]; intros ->; rewrite Ascii.eqb_refl in *; discriminate.
Qed.
Lemma whole_peel e : forall t, no_char backslash e = true -> whole (e ++ t) -> whole t.
Proof.
  induction e as [|a e IH]; intros t N W; [exact W|]. cbn in N. apply andb_prop in N as [A N]. cbn [append] in W. inversion W; subst; try (rewrite Ascii.eqb_refl in A; discriminate). auto.
Qed.
Lemma lowerhex_small d : (d < 16)%N -> byte_of (lowerhex d) = (if (d <? 10)%N then 48 + d else 87 + d)%N.
Proof. intros L. unfold lowerhex. apply byte_of_byte. destruct (N.ltb_spec d 10); lia. Qed.
Lemma lowerhex_not d c : (d < 16)%N -> ((byte_of c < 48) \/ (57 < byte_of c /\ byte_of c < 97) \/ 102 < byte_of c)%N -> lowerhex d <> c.
Proof. intros L N E. apply (f_equal byte_of) in E. rewrite lowerhex_small in E by exact L. destruct (N.ltb_spec d 10); lia. Qed.
(** Erasing does not start inside the digits. *)
Lemma erase_hexes k : forall n d t, (d < 16)%N -> erased (hexes k n ++ String (lowerhex d) t) = hexes k n ++ erased (String (lowerhex d) t).
Proof.
  induction k as [|k IH]; intros n d t L; [reflexivity|]. cbn [hexes]. rewrite !sapp_assoc. cbn [append]. assert (M := N.mod_lt n 16 ltac:(lia)). rewrite IH by exact M. f_equal. apply erase_else.
  cbn [String.prefix]. destruct (ascii_dec "d" _); [|reflexivity]. destruct (ascii_dec "i" (lowerhex d)) as [E|]; [|reflexivity]. symmetry in E. apply lowerhex_not in E; [contradiction|exact L|right; right; reflexivity].
Qed.
Lemma erase_whole : forall n t, String.length t <= n -> whole t -> inner (erased t).
Proof.
  induction n as [|n IH]; intros t L W; [destruct t; [constructor|cbn in L; lia]|]. destruct W as [|c t C1 C2 W|c t C W|c k m d t C Lm Nm Ld W].
  - constructor.
  - destruct (String.prefix "dict." (String c t)) eqn:P.
    + destruct (prefix_split _ _ P) as (r & E). assert (Wr : whole r) by (apply (whole_peel "dict."); [reflexivity|rewrite <- E; now constructor]). rewrite E, erase_at. apply IH; [|exact Wr]. apply (f_equal String.length) in E. cbn in E, L. lia.
    + rewrite erase_else by exact P. constructor; [exact C1|exact C2|]. apply IH; [cbn in L; lia|exact W].
  - rewrite erase_else by reflexivity. rewrite erase_else. 2:{ repeat (destruct C as [<-|C]; [reflexivity|]). destruct C. } constructor; [exact C|]. apply IH; [cbn in L; lia|exact W].
  - rewrite erase_else by reflexivity. rewrite erase_else. 2:{ destruct C as [[= <- <-]|[[= <- <-]|[[= <- <-]|[]]]]; reflexivity. }
    rewrite erase_hexes by exact Ld. apply i_head; [exact C|exact Lm|exact Nm|]. apply IH; [cbn in L; rewrite slength_app in L; cbn in *; lia|].
    constructor; [| |exact W]; apply lowerhex_not; try exact Ld; [left; reflexivity|right; left; split; reflexivity].
Qed.

Section Exact.
Variable is_print : N -> bool.
Hypothesis Pr : forall r, is_print r = true -> source_rune r = true.
Hypothesis Pa : forall r, (32 <= r < 127)%N -> is_print r = true.

Lemma whole_hex c k m t : In (c, k) heads -> (m < 16 ^ N.of_nat (S k))%N -> (m / 16)%N <> 2%N -> whole t -> whole (String backslash (String c (hexes (S k) m ++ t))).
Proof.
  intros C L N W. cbn [hexes]. rewrite sapp_assoc. cbn [append]. apply w_head; [exact C| |exact N|apply N.mod_lt; lia|exact W].
  rewrite Nat2N.inj_succ, N.pow_succ_r' in L. apply N.div_lt_upper_bound; lia.
Qed.
Lemma div_not_2 m : (m < 32 \/ 48 <= m)%N -> (m / 16)%N <> 2%N.
Proof. intros H E. assert (B := N.div_mod m 16 ltac:(lia)). assert (M := N.mod_lt m 16 ltac:(lia)). rewrite E in B. lia. Qed.
Lemma whole_escaped r t : valid_rune r = true -> whole t -> whole (escaped_rune is_print r ++ t).
Proof.
  intros V W. unfold escaped_rune. destruct (N.eqb_spec r 34) as [->|N1]; [apply w_single; [cbn; tauto|exact W]|]. destruct (N.eqb_spec r 92) as [->|N2]; [apply w_single; [cbn; tauto|exact W]|]. cbn [orb].
  destruct (is_print r) eqn:P; [apply whole_app; [apply (encode_high is_print)..|]; auto; reflexivity|].
  assert (R : (r < 32 \/ 127 <= r)%N). { destruct (N.lt_ge_cases r 32) as [|H]; [auto|]. destruct (N.lt_ge_cases r 127) as [H'|]; [|auto]. rewrite Pa in P by lia. discriminate. }
  repeat match goal with |- context [if (r =? ?n)%N then String backslash ?x else _] => destruct (r =? n)%N; [apply w_single; [cbn; tauto|exact W]|] end.
  destruct (N.ltb_spec r 32); [|destruct (N.ltb_spec r 0x10000)]; cbn [append]; apply whole_hex; try exact W; try (apply div_not_2; lia); try (cbn; tauto); apply valid_rune_spec in V; cbn; lia.
Qed.
Lemma byte_error a s w : decode_rune (String a s) = (rune_error, w) -> w = 1 -> (128 <= byte_of a)%N.
Proof. intros E ->. cbn [decode_rune] in E. destruct (N.ltb_spec (byte_of a) 128) as [H|H]; [|exact H]. injection E as E. rewrite E in H. discriminate. Qed.
Lemma whole_body : forall n s, String.length s <= n -> whole (quote_body is_print n s).
Proof.
  induction n as [|n IH]; intros s L; [constructor|]. destruct s as [|a s]; [constructor|]. assert (Ne : String a s <> "") by discriminate.
  assert (Be := byte_error a s). cbn [quote_body]. assert (W := decode_width _ Ne). assert (V := decode_valid (String a s)). assert (Ld := sdrop_length (snd (decode_rune (String a s))) (String a s)).
  destruct (decode_rune (String a s)) as [r w]. cbn [fst snd] in *. assert (I : whole (quote_body is_print n (sdrop w (String a s)))) by (apply IH; cbn [String.length] in *; lia).
  destruct ((w =? 1)%nat && (r =? rune_error)%N) eqn:B; [|now apply whole_escaped]. apply andb_prop in B as [B1 B2]. apply Nat.eqb_eq in B1. apply N.eqb_eq in B2. subst. specialize (Be _ eq_refl eq_refl). assert (Bl := byte_of_lt a).
  cbn [append]. apply whole_hex; [cbn; tauto|exact Bl|apply div_not_2; lia|exact I].
Qed.
Lemma hexes_dot k : forall n, no_char "." (hexes k n) = true.
Proof.
  induction k as [|k IH]; intros n; [reflexivity|]. cbn [hexes]. rewrite no_char_app, IH. cbn [no_char andb]. rewrite andb_true_r. apply negb_true_iff, Ascii.eqb_neq, lowerhex_not; [apply N.mod_lt; lia|left; reflexivity].
Qed.
Lemma dots_body : forall n s, String.length s <= n -> dots (quote_body is_print n s) <= dots s.
Proof.
  induction n as [|n IH]; intros s L; [cbn; lia|]. destruct s as [|a s]; [cbn; lia|]. assert (Ne : String a s <> "") by discriminate. cbn [quote_body].
  assert (W := decode_width _ Ne). assert (V := decode_valid (String a s)). assert (Ld := sdrop_length (snd (decode_rune (String a s))) (String a s)). assert (T := width_take _ Ne). assert (Sd := stake_sdrop (snd (decode_rune (String a s))) (String a s)).
  destruct (decode_rune (String a s)) as [r w]. cbn [fst snd] in *. rewrite dots_app, <- Sd, dots_app. rewrite Sd.
  assert (I : dots (quote_body is_print n (sdrop w (String a s))) <= dots (sdrop w (String a s))) by (apply IH; cbn [String.length] in *; lia).
  enough (dots (if (w =? 1)%nat && (r =? rune_error)%N then String backslash ("x" ++ hexes 2 (byte_of a)) else escaped_rune is_print r) <= dots (stake w (String a s))) by lia.
  destruct ((w =? 1)%nat && (r =? rune_error)%N).
  - cbn [append dots]. change (Ascii.eqb backslash ".") with false. change (Ascii.eqb "x" ".") with false. rewrite (no_dots _ (hexes_dot 2 _)). lia.
  - rewrite <- (T eq_refl). unfold escaped_rune. destruct (N.eqb_spec r 34) as [->|N1]; [reflexivity|]. destruct (N.eqb_spec r 92) as [->|N2]; [reflexivity|]. cbn [orb]. destruct (is_print r); [lia|].
    repeat match goal with |- context [if (r =? ?n)%N then String backslash ?x else _] => destruct (r =? n)%N; [cbn; lia|] end.
    destruct (r <? 32)%N; [|destruct (r <? 65536)%N]; cbn [append dots]; change (Ascii.eqb backslash ".") with false; rewrite (no_dots _ (hexes_dot _ _)); cbn; lia.
Qed.
Lemma occurs_before p c q : no_char c p = true -> p <> "" -> occurs p (q ++ String c "") -> occurs p q.
Proof.
  intros N Ne. induction q as [|a q IH]; intros O.
  - apply occurs_prefix in O as [O|O]; [|destruct O as ([|] & b & E); [destruct p; [congruence|discriminate]|discriminate]|discriminate]. rewrite (prefix_stop p c N "" "") in O. destruct p; [congruence|discriminate].
  - apply occurs_prefix in O as [O|O]; [| |discriminate].
    + rewrite (prefix_stop p c N (String a q) "") in O. destruct (prefix_split _ _ O) as (b & E). exists "", b. exact E.
    + apply occurs_cons, IH, O.
Qed.
(** The literal that is left of a quoted string. *)
Definition left_of (s : string) : string := erased (quote is_print s).
Lemma left_eq s : left_of s = String quote_sign (erased (quote_body is_print (String.length s) s) ++ String quote_sign "").
Proof.
  unfold left_of, quote. rewrite erase_else by reflexivity. f_equal. rewrite (erase_right quote_sign) by reflexivity. reflexivity.
Qed.
Lemma left_read s u f v w : read_string f (erased (quote_body is_print (String.length s) s) ++ String quote_sign u) = Some (v, w) ->
  w = u /\ dots v <= dots s /\ (occurs "dict." (quote is_print s) -> dots v < dots s).
Proof.
  intros E. destruct (inner_read _ _ _ _ _ (erase_whole _ _ (Nat.le_refl _) (whole_body _ s (Nat.le_refl _))) E) as [A ->]. assert (B := dots_erase _ _ (Nat.le_refl (String.length (quote_body is_print (String.length s) s)))). assert (C := dots_body _ s (Nat.le_refl _)).
  split; [reflexivity|]. split; [lia|]. intros O. unfold quote in O.
  assert (O' : occurs "dict." (quote_body is_print (String.length s) s)).
  { apply (occurs_before "dict." quote_sign); [reflexivity|discriminate|]. apply (occurs_skip "d" "ict." (String quote_sign "")); [reflexivity|exact O]. }
  apply (proj2 B) in O'. lia.
Qed.

(** ** The strings of a file *)

Fixpoint strings_of (l : list token) : list string :=
  match l with [] => [] | TString s :: l => s :: strings_of l | _ :: l => strings_of l end.
Lemma strings_app l : forall m, strings_of (l ++ m)%list = (strings_of l ++ strings_of m)%list.
Proof. induction l as [|[] l IH]; intros m; cbn; rewrite ?IH; reflexivity. Qed.
Lemma eats_strings t l l' : eats t l = Some l' -> strings_of l' = strings_of l.
Proof.
  destruct t, l as [|[] l]; cbn; try discriminate; try (intros [= <-]; reflexivity); match goal with |- (if ?b then _ else _) = _ -> _ => destruct b; [intros [= <-]; reflexivity|discriminate] end.
Qed.
Lemma eat_strings ts : forall l l', eat ts l = Some l' -> strings_of l' = strings_of l.
Proof.
  induction ts as [|t ts IH]; intros l l' E; cbn [eat] in E; [injection E as <-; reflexivity|]. destruct (eats t l) as [m|] eqn:X; [|discriminate]. rewrite (IH _ _ E). eapply eats_strings, X.
Qed.
Lemma field_strings n l s l' : field_string n l = Some (s, l') -> strings_of l = s :: strings_of l'.
Proof.
  unfold field_string. destruct (eat _ l) as [m|] eqn:X; [|discriminate]. apply eat_strings in X. destruct m as [|[] m]; try discriminate. intros [= <- <-]. rewrite <- X. reflexivity.
Qed.
Lemma int_strings l z l' : read_int l = Some (z, l') -> strings_of l = strings_of l'.
Proof. destruct l as [|[] [|[] l]]; cbn; try discriminate; try (intros [= <- <-]; reflexivity). destruct (Ascii.eqb a "-"); [intros [= <- <-]; reflexivity|discriminate]. Qed.
Definition entry_strings (e : string * dword) : list string := [fst e; dw_word (snd e); dw_def (snd e); dw_by (snd e)].
Lemma read_entry_strings l e l' : read_entry l = Some (e, l') -> strings_of l = (entry_strings e ++ strings_of l')%list.
Proof.
  unfold read_entry. intros E. destruct l as [|[|k| | |] l]; try discriminate.
  repeat match type of E with
  | match eat ?ts ?x with _ => _ end = _ => let X := fresh "X" in destruct (eat ts x) eqn:X; [apply eat_strings in X|discriminate E]
  | match field_string ?n ?x with _ => _ end = _ => let X := fresh "X" in destruct (field_string n x) as [[? ?]|] eqn:X; [apply field_strings in X|discriminate E]
  | match read_int ?x with _ => _ end = _ => let X := fresh "X" in destruct (read_int x) as [[? ?]|] eqn:X; [apply int_strings in X|discriminate E]
  end.
  injection E as <- <-. cbn [strings_of entry_strings fst snd dw_word dw_def dw_by app]. congruence.
Qed.
Lemma read_entries_strings : forall f l es l', read_entries f l = Some (es, l') -> strings_of l = (flat_map entry_strings es ++ strings_of l')%list.
Proof.
  induction f as [|f IH]; intros l es l' E; [discriminate|]. cbn [read_entries] in E. destruct (eat [TSign "}"] l) as [m|] eqn:X; [apply eat_strings in X; injection E as <- <-; symmetry; exact X|].
  destruct (read_entry l) as [[e m]|] eqn:Y; [|discriminate]. apply read_entry_strings in Y. rewrite Y. destruct (eat [TSign ","] m) as [m'|] eqn:Z.
  - apply eat_strings in Z. destruct (read_entries f m') as [[es' l'']|] eqn:R; [|discriminate]. apply IH in R. injection E as <- <-. cbn [flat_map]. rewrite <- app_assoc. congruence.
  - destruct (eat [TSign "}"] m) as [m'|] eqn:Z'; [|discriminate]. apply eat_strings in Z'. injection E as <- <-. cbn [flat_map]. rewrite app_nil_r. congruence.
Qed.
Lemma lines_strings l : strings_of (lines l) = strings_of l.
Proof. induction l as [|[] l IH]; cbn; auto. Qed.
Lemma declared_strings src es : declared src = Some es -> exists l, lexes src = Some l /\ strings_of l = flat_map entry_strings es.
Proof.
  unfold declared. fold (lexes src). destruct (lexes src) as [l|]; [|discriminate]. intros E. exists l. split; [reflexivity|].
  destruct (eat _ (lines l)) as [l1|] eqn:X1; [|discriminate]. apply eat_strings in X1. destruct (eat _ (lines l1)) as [l2|] eqn:X2; [|discriminate]. apply eat_strings in X2. destruct (read_entries _ l2) as [[es' l3]|] eqn:X3; [|discriminate]. apply read_entries_strings in X3.
  assert (Z := lines_strings l3). destruct (lines l3); [|discriminate]. destruct (distinct_keys es'); [|discriminate]. injection E as <-. rewrite lines_strings in X1, X2. cbn in Z. rewrite <- Z, app_nil_r in X3. congruence.
Qed.

(** The tokens of [u] can be told, and their strings compare to [ss]: each has at most as many
    dots, and fewer when something was erased from it. *)
Definition beside (v s : string) : Prop := dots v <= dots s /\ (occurs "dict." (quote is_print s) -> dots v < dots s).
Definition says (u : string) (ss : list string) : Prop := forall l, lexes u = Some l -> Forall2 beside (strings_of l) ss.
Lemma says_quote s u ss : says (erased u) ss -> says (erased (quote is_print s ++ u)) (s :: ss).
Proof.
  intros H l E. assert (Q : exists q, quote is_print s = q ++ String quote_sign "") by (exists (String quote_sign (quote_body is_print (String.length s) s)); reflexivity).
  assert (X : erased (quote is_print s ++ u) = erased (quote is_print s) ++ erased u) by (destruct Q as (q & ->); apply erase_left; reflexivity).
  rewrite X in E. fold (left_of s) in E. rewrite left_eq in E. cbn [append] in E. rewrite sapp_assoc in E. cbn [append] in E. clear X Q.
  unfold lexes at 1 in E. remember (String.length (String quote_sign _)) as f. cbn [tokens] in E. change (byte_of quote_sign) with 34%N in E. cbn [N.eqb Pos.eqb orb] in E.
  destruct (read_string _ _) as [[v w]|] eqn:R in E; [|discriminate]. apply left_read in R as (-> & R). rewrite lexes_eq in E by (subst f; cbn [String.length]; rewrite slength_app; cbn; lia).
  destruct (lexes (erased u)) as [m|] eqn:M; [|discriminate]. injection E as <-. cbn [strings_of]. constructor; [exact R|]. apply H, M.
Qed.
Lemma says_app p ts u ss : lexes (p ++ u) = app_tokens ts (lexes u) -> strings_of ts = [] -> says u ss -> says (p ++ u) ss.
Proof.
  intros E N H l X. rewrite E in X. destruct (lexes u) as [m|] eqn:M; [|discriminate]. injection X as <-. rewrite strings_app, N. apply H, M.
Qed.
Lemma erase_piece p c u : seam c = true -> ~ occurs "dict." (p ++ String c "") -> erased ((p ++ String c "") ++ u) = (p ++ String c "") ++ erased u.
Proof. intros S N. rewrite erase_left by exact S. now rewrite erase_clean. Qed.
Ltac stop := let H := fresh in intros ? ? H; injection H; intros _ <-; reflexivity.
Ltac told := rewrite ?cons_app, ?app_app; reflexivity.
Lemma says_type u ss : says u ss -> says (":Word{Word:" ++ u) ss.
Proof.
  apply (says_app ":Word{Word:" [TSign ":"; TName "Word"; TSign "{"; TName "Word"; TSign ":"]); [|reflexivity]. change (":Word{Word:" ++ u) with (String ":" ("Word" ++ String "{" ("Word" ++ String ":" u))).
  rewrite lex_sign by reflexivity. rewrite (lex_name "W" "ord") by (try reflexivity; stop). rewrite lex_sign by reflexivity. rewrite (lex_name "W" "ord") by (try reflexivity; stop). rewrite lex_sign by reflexivity. told.
Qed.
Lemma says_def u ss : says u ss -> says (", Def:" ++ u) ss.
Proof.
  apply (says_app ", Def:" [TSign ","; TName "Def"; TSign ":"]); [|reflexivity]. change (", Def:" ++ u) with (String "," (String " " ("Def" ++ String ":" u))). rewrite lex_sign by reflexivity. rewrite lex_blank. rewrite (lex_name "D" "ef") by (try reflexivity; stop). rewrite lex_sign by reflexivity. told.
Qed.
Lemma says_by u ss : says u ss -> says (", By:" ++ u) ss.
Proof.
  apply (says_app ", By:" [TSign ","; TName "By"; TSign ":"]); [|reflexivity]. change (", By:" ++ u) with (String "," (String " " ("By" ++ String ":" u))). rewrite lex_sign by reflexivity. rewrite lex_blank. rewrite (lex_name "B" "y") by (try reflexivity; stop). rewrite lex_sign by reflexivity. told.
Qed.
Lemma says_score n u ss : says u ss -> says (", Score:" ++ decimal n ++ String "}" u) ss.
Proof.
  intros H. apply (says_app ", Score:" [TSign ","; TName "Score"; TSign ":"]); [|reflexivity|].
  - change (", Score:" ++ ?x) with (String "," (String " " ("Score" ++ String ":" x))). rewrite lex_sign by reflexivity. rewrite lex_blank. rewrite (lex_name "S" "core") by (try reflexivity; stop). rewrite lex_sign by reflexivity. told.
  - intros l E. rewrite lex_decimal, lex_sign in E by reflexivity. destruct (lexes u) as [m|] eqn:M; [|discriminate]. cbn [cons_token app_tokens] in E. injection E as <-. rewrite strings_app. cbn [strings_of].
    replace (strings_of (int_tokens n)) with (@nil string) by (destruct n; reflexivity). apply H, M.
Qed.
Lemma says_entry e u ss : says (erased u) ss -> says (erased (entry_literal is_print e ++ u)) (entry_strings e ++ ss)%list.
Proof.
  intros H. destruct e as [k [w d b n]]. unfold entry_literal, word_literal, entry_strings. cbn [fst snd dw_word dw_def dw_by dw_score app]. rewrite !sapp_assoc.
  assert (N : forall x, no_char "d" x = true -> ~ occurs "dict." x) by apply no_d_clean.
  apply says_quote. match goal with |- says (erased (":" ++ "dict.Word{Word:" ++ ?x)) _ => change (":" ++ "dict.Word{Word:" ++ x) with ((":dict.Word{Word" ++ ":") ++ x) end. rewrite erase_left by reflexivity. change (erased (":dict.Word{Word" ++ ":")) with ":Word{Word:". apply says_type.
  apply says_quote. change ", Def:" with (", Def" ++ ":"). rewrite erase_piece by (try reflexivity; apply N; reflexivity). apply says_def.
  apply says_quote. change ", By:" with (", By" ++ ":"). rewrite erase_piece by (try reflexivity; apply N; reflexivity). apply says_by.
  apply says_quote. change ", Score:" with (", Score" ++ ":"). rewrite erase_piece by (try reflexivity; apply N; reflexivity).
  assert (E : forall x y, x ++ "}" ++ y = (x ++ "}") ++ y) by (intros; rewrite sapp_assoc; reflexivity). rewrite E. rewrite erase_piece; [|reflexivity|].
  - replace ((decimal n ++ "}") ++ erased u) with (decimal n ++ String "}" (erased u)) by (rewrite sapp_assoc; reflexivity). exact (says_score n _ _ H).
  - apply N. rewrite no_char_app, decimal_clean. reflexivity.
Qed.
Lemma says_entries : forall l u ss, says (erased u) ss -> says (erased (entries_literal is_print l ++ u)) (flat_map entry_strings l ++ ss)%list.
Proof.
  induction l as [|e [|e' l] IH]; intros u ss H.
  - exact H.
  - cbn [entries_literal flat_map]. rewrite app_nil_r. now apply says_entry.
  - change (entries_literal is_print (e :: e' :: l)) with (entry_literal is_print e ++ ", " ++ entries_literal is_print (e' :: l)). change (flat_map entry_strings (e :: e' :: l)) with (entry_strings e ++ flat_map entry_strings (e' :: l))%list.
    rewrite !sapp_assoc, <- app_assoc. apply says_entry. change ", " with ("," ++ " "). rewrite erase_piece by (try reflexivity; apply no_d_clean; reflexivity).
    apply (says_app ("," ++ " ") [TSign ","]); [|reflexivity|apply IH, H]. match goal with |- lexes (("," ++ " ") ++ ?x) = _ => change (("," ++ " ") ++ x) with (String "," (String " " x)) end. rewrite lex_sign by reflexivity. rewrite lex_blank. told.
Qed.
Lemma says_source now l : no_char (byte 10) now = true -> says (generated is_print now l) (flat_map entry_strings l).
Proof.
  intros C. unfold generated.
  assert (E : source is_print now l = ((("package dict" ++ String (byte 10) ("// Words contains the dictionary of words." ++ String (byte 10) "// Last updated:")) ++ " ") ++ (now ++ ".") ++
    String (byte 10) ("var Words = map[string]dict.Word{" ++ entries_literal is_print l ++ String "}" (String (byte 10) "")))) by (unfold source, map_literal, newline; rewrite !sapp_assoc; reflexivity).
  rewrite E. clear E. rewrite erase_left by reflexivity. rewrite (erase_right (byte 10)) by reflexivity.
  assert (E' : String (byte 10) ("var Words = map[string]dict.Word{" ++ entries_literal is_print l ++ String "}" (String (byte 10) "")) =
    (String (byte 10) "var Words = map[string]dict.Word" ++ "{") ++ entries_literal is_print l ++ String "}" (String (byte 10) "")) by reflexivity.
  rewrite E'. clear E'. rewrite erase_left by reflexivity. assert (N : no_char (byte 10) (erased (now ++ ".")) = true).
  { apply erase_line. rewrite no_char_app, C. reflexivity. }
  revert N. generalize (erased (now ++ ".")). intros cm N. assert (S := says_entries l (String "}" (String (byte 10) "")) []). rewrite app_nil_r in S. assert (B : says (erased (String "}" (String (byte 10) ""))) []) by (intros m M; vm_compute in M; injection M as <-; constructor).
  specialize (S B). revert S. generalize (erased (entries_literal is_print l ++ String "}" (String (byte 10) ""))). intros rest S.
  assert (E : erased (("package dict" ++ String (byte 10) ("// Words contains the dictionary of words." ++ String (byte 10) "// Last updated:")) ++ " ") ++ cm ++ erased (String (byte 10) "var Words = map[string]dict.Word" ++ "{") ++ rest =
    "package" ++ String " " ("dict" ++ String (byte 10) ("//" ++ " Words contains the dictionary of words." ++ String (byte 10) ("//" ++ (" Last updated: " ++ cm) ++
    String (byte 10) ("var" ++ String " " ("Words" ++ String " " (String "=" (String " " ("map" ++ String "[" ("string" ++ String "]" ("Word" ++ String "{" rest))))))))))).
  { rewrite !sapp_assoc. reflexivity. }
  rewrite E. clear E. intros m M.
  rewrite (lex_name "p" "ackage") in M by (try reflexivity; stop). rewrite lex_blank in M. rewrite (lex_name "d" "ict") in M by (try reflexivity; stop). rewrite lex_line in M.
  rewrite lex_comment in M by reflexivity. rewrite lex_line in M.
  rewrite lex_comment in M by (cbn; exact N). rewrite lex_line in M.
  rewrite (lex_name "v" "ar") in M by (try reflexivity; stop). rewrite lex_blank in M. rewrite (lex_name "W" "ords") in M by (try reflexivity; stop). rewrite lex_blank, lex_sign in M by reflexivity. rewrite lex_blank in M. rewrite (lex_name "m" "ap") in M by (try reflexivity; stop).
  rewrite lex_sign in M by reflexivity. rewrite (lex_name "s" "tring") in M by (try reflexivity; stop). rewrite lex_sign in M by reflexivity. rewrite (lex_name "W" "ord") in M by (try reflexivity; stop). rewrite lex_sign in M by reflexivity.
  destruct (lexes rest) as [r|] eqn:R; [|discriminate]. cbn [cons_token] in M. injection M as <-. cbn [strings_of]. apply S, R.
Qed.

Lemma beside_sum : forall vs ss, Forall2 beside vs ss -> list_sum (map dots vs) <= list_sum (map dots ss) /\ (list_sum (map dots vs) = list_sum (map dots ss) -> Forall (clean is_print) ss).
Proof.
  induction 1 as [|v s vs ss [B1 B2] H [IH1 IH2]]; [split; [cbn; lia|constructor]|]. change (list_sum (map dots (v :: vs))) with (dots v + list_sum (map dots vs)). change (list_sum (map dots (s :: ss))) with (dots s + list_sum (map dots ss)). split; [lia|]. intros E. constructor.
  - intros O. apply B2 in O. lia.
  - apply IH2. lia.
Qed.
Lemma sum_perm (f : string -> nat) l l' : Permutation l l' -> list_sum (map f l) = list_sum (map f l').
Proof. unfold list_sum. induction 1; cbn [map fold_right]; lia. Qed.
Lemma flat_perm {A B} (f : A -> list B) l l' : Permutation l l' -> Permutation (flat_map f l) (flat_map f l').
Proof.
  induction 1; cbn; [constructor|now apply Permutation_app_head| |etransitivity; eassumption]. rewrite !app_assoc. apply Permutation_app_tail, Permutation_app_comm.
Qed.
Theorem declared_clean now l ws : no_char (byte 10) now = true -> declared (generated is_print now l) = Some ws -> Permutation ws l -> Forall (clean is_print) (flat_map entry_strings l).
Proof.
  intros N D P. destruct (declared_strings _ _ D) as (t & L & E). assert (S := says_source now l N t L). rewrite E in S. apply beside_sum in S as [_ S]. apply S, sum_perm, flat_perm, P.
Qed.
End Exact.

(** ** The program *)

Lemma lookup_same (l l' : words) : NoDup (map fst l) -> NoDup (map fst l') -> (forall k, slookup k l = slookup k l') -> Permutation l l'.
Proof.
  intros N N' H. assert (F : forall l : words, NoDup (map fst l) -> NoDup l) by (intros x X; eapply NoDup_map_inv, X).
  apply NoDup_Permutation; [now apply F|now apply F|]. intros [k w]. split; intros I.
  - apply lookup_in. rewrite <- H. now apply in_lookup.
  - apply lookup_in. rewrite H. now apply in_lookup.
Qed.
Lemma distinct_nodup l : distinct_keys l = true -> NoDup (map fst l).
Proof.
  induction l as [|[k w] l IH]; intros D; [constructor|]. cbn in D. apply andb_prop in D as [D1 D2]. cbn. constructor; [|auto]. intros I. apply negb_true_iff, not_true_iff_false in D1. apply D1. apply existsb_exists. apply in_map_iff in I as (e & <- & I). exists e. split; [exact I|apply String.eqb_refl].
Qed.
Lemma declared_nodup src ws : declared src = Some ws -> NoDup (map fst ws).
Proof.
  unfold declared. destruct (tokens _ src) as [l|]; [|discriminate]. destruct (eat _ (lines l)) as [l1|]; [|discriminate]. destruct (eat _ (lines l1)) as [l2|]; [|discriminate]. destruct (read_entries _ l2) as [[es l3]|]; [|discriminate]. destruct (lines l3); [|discriminate].
  destruct (distinct_keys es) eqn:D; [|discriminate]. intros [= <-]. now apply distinct_nodup.
Qed.
Section Program.
Variables (tl : string -> string) (is_print : N -> bool) (gofmt : string -> string + string) (listing : words -> list (string * dword)) (now : string).
Hypothesis Pr : forall r, is_print r = true -> source_rune r = true.
Hypothesis Pa : forall r, (32 <= r < 127)%N -> is_print r = true.
Hypothesis Gf : forall src ws, declared src = Some ws -> exists out, gofmt src = inl out /\ declared out = Some ws.
Hypothesis Gd : forall src out, gofmt src = inl out -> declared out = declared src.
Hypothesis Ls : forall m, NoDup (map fst (listing m)) /\ forall k w, In (k, w) (listing m) <-> slookup k m = Some w.
Hypothesis Nw : no_char (byte 10) now = true.

Theorem generator_exact r m : load tl r = Ok (LMap m) ->
  (exists out W, generator tl is_print gofmt listing now r = Ok (Made "" (Some out) 0) /\ words_of out = Some W /\ forall k, W k = slookup k m) <->
  (forall k w s, slookup k m = Some w -> In s [k; dw_word w; dw_def w; dw_by w] -> ~ occurs "dict." (quote is_print s)).
Proof.
  intros L. split; [|now apply generator_words]. intros (out & W & G & Wo & H) k w s Lk I. destruct (Ls m) as [Nd In_].
  unfold generator in G. rewrite L in G. cbn [bind] in G. destruct (gofmt _) as [o|msg] eqn:F; [|discriminate]. injection G as ->. apply Gd in F. unfold words_of in Wo. destruct (declared out) as [ws|] eqn:D; [|discriminate]. injection Wo as <-.
  assert (P : Permutation ws (listing m)).
  { apply lookup_same; [eapply declared_nodup, D|exact Nd|]. intros j. rewrite H. destruct (slookup j m) as [x|] eqn:E; [symmetry; apply in_lookup; [exact Nd|]; now apply In_|].
    destruct (slookup j (listing m)) as [y|] eqn:Y; [|reflexivity]. apply lookup_in, In_ in Y. congruence. }
  symmetry in F. assert (C := declared_clean is_print Pr Pa now (listing m) ws Nw F P). rewrite Forall_forall in C. apply C. apply in_flat_map. exists (k, w). split; [now apply In_|exact I].
Qed.
End Program.
Lemma ascii_print_all r : (32 <= r < 127)%N -> ascii_print r = true.
Proof. intros H. unfold ascii_print. apply andb_true_iff. split; [apply N.leb_le|apply N.ltb_lt]; lia. Qed.
Lemma same_same src out : same src = inl out -> declared out = declared src.
Proof. unfold same. destruct (declared src) eqn:D; [|discriminate]. intros [= <-]. exact D. Qed.
