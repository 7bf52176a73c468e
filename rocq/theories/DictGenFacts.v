(** The generated source file says what the dictionary says. *)

From Coq Require Import Ascii String List Bool Arith NArith ZArith Lia Decimal DecimalString DecimalFacts DecimalN.
From Verif Require Import Base Utf8 Utf8Facts Tone Dict DictFacts DictGen DictRead.
Import ListNotations.
Open Scope list_scope.
Open Scope nat_scope.
Open Scope string_scope.

(** [pat] occurs in [s]. *)
Definition occurs (pat s : string) : Prop := exists a b, s = a ++ pat ++ b.

(** ** Erasing *)

Lemma prefix_split p : forall s, String.prefix p s = true -> exists b, s = p ++ b.
Proof.
  induction p as [|a p IH]; intros s H; [exists s; reflexivity|]. destruct s as [|b s]; [discriminate|]. cbn in H. destruct (ascii_dec a b) as [->|]; [|discriminate].
  destruct (IH _ H) as (x & ->). exists x. reflexivity.
Qed.
Lemma erase_clean old s : old <> "" -> ~ occurs old s -> erase old 0 s = s.
Proof.
  intros Ne. induction s as [|a s IH]; intros N; [reflexivity|]. cbn [erase]. destruct (String.prefix old (String a s)) eqn:P.
  - elim N. destruct (prefix_split _ _ P) as (b & E). exists "", b. exact E.
  - f_equal. apply IH. intros (x & b & ->). apply N. exists (String a x), b. reflexivity.
Qed.
Fixpoint no_char (c : ascii) (s : string) : bool := match s with "" => true | String a s => negb (Ascii.eqb a c) && no_char c s end.
Lemma prefix_stop p c : no_char c p = true -> forall a b, String.prefix p (a ++ String c b) = String.prefix p a.
Proof.
  induction p as [|x p IH]; intros N a b; [destruct a; reflexivity|]. cbn in N. apply andb_prop in N as [Nx N]. destruct a as [|y a].
  - cbn. destruct (ascii_dec x c) as [->|]; [|reflexivity]. rewrite Ascii.eqb_refl in Nx. discriminate.
  - cbn. destruct (ascii_dec x y); [|reflexivity]. apply IH, N.
Qed.
Lemma prefix_length p : forall s, String.prefix p s = true -> String.length p <= String.length s.
Proof. intros s H. destruct (prefix_split _ _ H) as (b & ->). rewrite slength_app. lia. Qed.
Lemma erase_stop old c : no_char c old = true -> old <> "" -> forall a k b, k <= String.length a -> erase old k (a ++ String c b) = erase old k a ++ String c (erase old 0 b).
Proof.
  intros N Ne. induction a as [|x a IH]; intros k b L.
  - cbn in L. assert (k = 0) by lia. subst k. cbn [append erase]. assert (P := prefix_stop old c N "" b). cbn [append] in P. rewrite P. destruct old; [congruence|]. reflexivity.
  - cbn [append erase]. destruct k as [|k]; [|cbn in L; apply IH; lia]. assert (P := prefix_stop old c N (String x a) b). cbn [append] in P. rewrite P.
    destruct (String.prefix old (String x a)) eqn:E; [|cbn [append]; f_equal; apply IH; lia]. apply IH. apply prefix_length in E. cbn in E. destruct old; [congruence|]. cbn in *. lia.
Qed.
Notation erased := (erase "dict." 0).
Definition seam (c : ascii) : bool := no_char c "dict.".
Lemma erase_left c a b : seam c = true -> erased ((a ++ String c "") ++ b) = erased (a ++ String c "") ++ erased b.
Proof.
  intros S. replace ((a ++ String c "") ++ b)%string with (a ++ String c b)%string by (rewrite sapp_assoc; reflexivity).
  rewrite !(erase_stop "dict." c S) by (try discriminate; lia). rewrite sapp_assoc. reflexivity.
Qed.
Lemma erase_right c a b : seam c = true -> erased (a ++ String c b) = erased a ++ erased (String c b).
Proof.
  intros S. rewrite (erase_stop "dict." c S) by (try discriminate; lia). assert (P := erase_stop "dict." c S ltac:(discriminate) "" 0 b (Nat.le_refl _)). cbn [append] in P. rewrite P. reflexivity.
Qed.
Lemma erase_line : forall s k, no_char (byte 10) s = true -> no_char (byte 10) (erase "dict." k s) = true.
Proof.
  induction s as [|a s IH]; intros k N; [reflexivity|]. assert (N' := N). cbn [no_char] in N. apply andb_prop in N as [Na N]. cbn [erase]. destruct k; [|now apply IH].
  destruct (String.prefix _ _); [now apply IH|]. cbn [no_char]. now rewrite Na, IH.
Qed.

(** ** Quoting *)

Lemma hexes_length k : forall n, String.length (hexes k n) = k.
Proof. induction k as [|k IH]; intros n; [reflexivity|]. cbn [hexes]. rewrite slength_app, IH. cbn. lia. Qed.
Lemma digit_hex n : (n < 16)%N -> digit_value (lowerhex n) = Some n.
Proof.
  intros L. assert (C : forallb (fun n => match digit_value (lowerhex n) with Some m => (m =? n)%N | None => false end) [0;1;2;3;4;5;6;7;8;9;10;11;12;13;14;15]%N = true) by reflexivity.
  rewrite forallb_forall in C. specialize (C n). destruct (digit_value (lowerhex n)) as [m|].
  - assert (I : (m =? n)%N = true) by (apply C; cbn; lia). apply N.eqb_eq in I. now subst.
  - assert (I : false = true) by (apply C; cbn; lia). discriminate.
Qed.
Lemma read_digits_split base k : forall j acc s, read_digits base (k + j) acc s = match read_digits base k acc s with Some (n, u) => read_digits base j n u | None => None end.
Proof.
  induction k as [|k IH]; intros j acc s; [reflexivity|]. cbn [Nat.add read_digits]. destruct s as [|a s]; [reflexivity|]. destruct (digit_value a) as [d|]; [|reflexivity]. destruct (d <? base)%N; [apply IH|reflexivity].
Qed.
Lemma read_hexes k : forall n acc s, (n < 16 ^ N.of_nat k)%N -> read_digits 16 k acc (hexes k n ++ s) = Some (acc * 16 ^ N.of_nat k + n, s)%N.
Proof.
  induction k as [|k IH]; intros n acc s L.
  - cbn. cbn in L. f_equal. f_equal. lia.
  - cbn [hexes]. rewrite sapp_assoc. replace (S k) with (k + 1) by lia. rewrite read_digits_split. rewrite Nat2N.inj_add in *. change (N.of_nat 1) with 1%N in *. rewrite N.pow_add_r in *. change (16 ^ 1)%N with 16%N in *.
    assert (B := N.div_mod n 16 ltac:(lia)). assert (M := N.mod_lt n 16 ltac:(lia)). rewrite IH.
    + cbn [read_digits append]. rewrite digit_hex by exact M. assert (X : (n mod 16 <? 16)%N = true) by (apply N.ltb_lt; exact M). rewrite X. f_equal. f_equal. rewrite N.mul_add_distr_r. rewrite <- N.mul_assoc. rewrite (N.mul_comm (n / 16)). lia.
    + replace (S k) with (k + 1) in L by lia. rewrite Nat2N.inj_add in L. change (N.of_nat 1) with 1%N in L. rewrite N.pow_add_r in L. change (16 ^ 1)%N with 16%N in L. apply N.div_lt_upper_bound; [lia|]. lia.
Qed.

Definition prepend (v : string) (o : option (string * string)) : option (string * string) := match o with Some (w, x) => Some (v ++ w, x) | None => None end.
Lemma read_escaped fuel t v u : read_escape t = Some (v, u) -> read_string (S fuel) (String backslash t) = prepend v (read_string fuel u).
Proof. intros E. cbn [read_string]. change (byte_of backslash) with 92%N. change (92 =? 34)%N with false. change (92 =? 92)%N with true. cbv iota. rewrite E. reflexivity. Qed.
Lemma escape_x n u : (n < 256)%N -> read_escape ("x" ++ hexes 2 n ++ u) = Some (String (byte n) "", u).
Proof. intros L. cbn [append read_escape]. change (byte_of "x") with 120%N. cbn [N.eqb Pos.eqb]. rewrite read_hexes by exact L. reflexivity. Qed.
Lemma escape_u n u : (n < 0x10000)%N -> valid_rune n = true -> read_escape ("u" ++ hexes 4 n ++ u) = Some (encode_rune n, u).
Proof. intros L V. cbn [append read_escape]. change (byte_of "u") with 117%N. cbn [N.eqb Pos.eqb]. rewrite read_hexes by exact L. rewrite N.mul_0_l, N.add_0_l, V. reflexivity. Qed.
Lemma escape_U n u : valid_rune n = true -> read_escape ("U" ++ hexes 8 n ++ u) = Some (encode_rune n, u).
Proof.
  intros V. cbn [append read_escape]. change (byte_of "U") with 85%N. cbn [N.eqb Pos.eqb]. rewrite read_hexes; [rewrite N.mul_0_l, N.add_0_l, V; reflexivity|].
  apply valid_rune_spec in V. change (16 ^ N.of_nat 8)%N with 4294967296%N. lia.
Qed.
Lemma encode_small r : (r < 128)%N -> encode_rune r = String (byte r) "".
Proof. intros L. assert (V : valid_rune r = true) by (apply valid_rune_spec; lia). unfold encode_rune. rewrite V. rewrite if_true by (apply N.ltb_lt; lia). reflexivity. Qed.

Section Quoting.
Variable is_print : N -> bool.
Hypothesis Pr : forall r, is_print r = true -> source_rune r = true.

Lemma read_rune fuel r u : valid_rune r = true -> source_rune r = true -> r <> 34%N -> r <> 92%N ->
  read_string (S fuel) (encode_rune r ++ u) = prepend (encode_rune r) (read_string fuel u).
Proof.
  intros V S N1 N2. destruct (encode_rune r) as [|a x] eqn:E; [now apply encode_rune_nonempty in E|].
  assert (A : byte_of a <> 34%N /\ byte_of a <> 92%N).
  { unfold encode_rune in E. rewrite V in E. destruct (r <? 128)%N eqn:E0; [apply N.ltb_lt in E0; assert (X : a = byte r) by congruence; rewrite X; rewrite byte_of_byte by lia; auto|].
    apply valid_rune_spec in V. apply N.ltb_ge in E0. destruct (r <? 2048)%N eqn:E1; [|destruct (r <? 65536)%N eqn:E2]; match type of E with String ?b _ = String _ _ => assert (X : a = b) by congruence; rewrite X; clear X E end; rewrite ?N.ltb_lt, ?N.ltb_ge in *.
    - assert (r / 64 < 32)%N by (apply N.div_lt_upper_bound; lia). rewrite byte_of_byte by lia. lia.
    - assert (r / 4096 < 16)%N by (apply N.div_lt_upper_bound; lia). rewrite byte_of_byte by lia. lia.
    - assert (r / 262144 < 5)%N by (apply N.div_lt_upper_bound; lia). rewrite byte_of_byte by lia. lia. }
  assert (D := decode_encode_app r u V). rewrite E in D.
  cbn [append read_string]. rewrite (proj2 (N.eqb_neq _ _) (proj1 A)), (proj2 (N.eqb_neq _ _) (proj2 A)).
  change (String a (x ++ u)) with (String a x ++ u). rewrite D. rewrite S. cbn [negb]. rewrite orb_false_r.
  assert (W : (String.length (String a x) =? 1)%nat && (r =? rune_error)%N = false).
  { destruct (N.eqb_spec r rune_error) as [->|]; [|apply andb_false_r]. vm_compute in E. injection E as <- <-. reflexivity. }
  rewrite W, sdrop_app, stake_app. reflexivity.
Qed.
Ltac code n := rewrite ?orb_true_r; cbn [orb append]; erewrite read_escaped by reflexivity; rewrite (encode_small n) by lia; reflexivity.
Lemma read_escaped_rune fuel r u : valid_rune r = true ->
  read_string (S fuel) (escaped_rune is_print r ++ u) = prepend (encode_rune r) (read_string fuel u).
Proof.
  intros V. unfold escaped_rune. destruct (N.eqb_spec r 34) as [->|N1]; [code 34%N|]. destruct (N.eqb_spec r 92) as [->|N2]; [code 92%N|]. cbn [orb].
  destruct (is_print r) eqn:P; [apply read_rune; auto|].
  destruct (N.eqb_spec r 7) as [->|]; [code 7%N|]. destruct (N.eqb_spec r 8) as [->|]; [code 8%N|]. destruct (N.eqb_spec r 12) as [->|]; [code 12%N|].
  destruct (N.eqb_spec r 10) as [->|]; [code 10%N|]. destruct (N.eqb_spec r 13) as [->|]; [code 13%N|]. destruct (N.eqb_spec r 9) as [->|]; [code 9%N|]. destruct (N.eqb_spec r 11) as [->|]; [code 11%N|].
  destruct (N.ltb_spec r 32) as [L|L]; [|destruct (N.ltb_spec r 0x10000) as [L'|L']]; cbn [append]; rewrite ?sapp_assoc.
  - rewrite (read_escaped _ _ _ _ (escape_x r u ltac:(lia))), encode_small by lia. reflexivity.
  - apply (read_escaped _ _ _ _ (escape_u r u L' V)).
  - apply (read_escaped _ _ _ _ (escape_U r u V)).
Qed.

Lemma error_bytes s : fst (decode_rune s) = rune_error -> s <> "" -> snd (decode_rune s) <> 1 -> exists t, s = encode_rune rune_error ++ t.
Proof.
  destruct s as [|a0 s]; [congruence|]. intros H _. cbn [decode_rune] in *. destruct (byte_of a0 <? 128)%N; [intros []; reflexivity|].
  destruct (in_range 194 223 (byte_of a0)) eqn:E1.
  { destruct s as [|a1 s]; [intros []; reflexivity|]. destruct (is_cont (byte_of a1)) eqn:E2; [|intros []; reflexivity]. apply in_range_spec in E1, E2. cbn [fst] in H. unfold rune_error in H. lia. }
  destruct (in_range 224 239 (byte_of a0)) eqn:E2.
  { destruct s as [|a1 [|a2 s]]; [intros []; reflexivity..|]. destruct (second_ok (byte_of a0) (byte_of a1) && is_cont (byte_of a2)) eqn:E3; [|intros []; reflexivity].
    apply andb_prop in E3 as [E3 E4]. apply second_ok_cont in E3. apply in_range_spec in E2, E3, E4. cbn [fst] in H. unfold rune_error in H. intros _. exists s.
    rewrite <- (byte_byte_of a0), <- (byte_byte_of a1), <- (byte_byte_of a2). assert (X : byte_of a0 = 239%N /\ byte_of a1 = 191%N /\ byte_of a2 = 189%N) by lia. destruct X as (-> & -> & ->). reflexivity. }
  destruct (in_range 240 244 (byte_of a0)) eqn:E3; [|intros []; reflexivity].
  destruct s as [|a1 [|a2 [|a3 s]]]; [intros []; reflexivity..|]. destruct (second_ok (byte_of a0) (byte_of a1) && is_cont (byte_of a2) && is_cont (byte_of a3)) eqn:E4; [|intros []; reflexivity].
  apply andb_prop in E4 as [E4 E6]. apply andb_prop in E4 as [E4 E5]. assert (E4' := second_ok_cont _ _ E4). apply in_range_spec in E3, E4', E5, E6. cbn [fst] in H. unfold rune_error in H. exfalso.
  unfold second_ok in E4. destruct (N.eqb_spec (byte_of a0) 240) as [E|]; [|lia]. rewrite E in *. cbn [N.eqb Pos.eqb] in E4. apply in_range_spec in E4. lia.
Qed.
Lemma width_take s : s <> "" -> (snd (decode_rune s) =? 1)%nat && (fst (decode_rune s) =? rune_error)%N = false -> encode_rune (fst (decode_rune s)) = stake (snd (decode_rune s)) s.
Proof.
  intros Ne B. assert (X : exists t, s = encode_rune (fst (decode_rune s)) ++ t).
  { destruct (N.eq_dec (fst (decode_rune s)) rune_error) as [E|E]; [|exists (sdrop (snd (decode_rune s)) s); now apply decode_inv].
    rewrite E in B |- *. rewrite N.eqb_refl, andb_true_r in B. apply Nat.eqb_neq in B. now apply error_bytes. }
  destruct X as (t & X). assert (D := decode_encode_app (fst (decode_rune s)) t (decode_valid s)). rewrite <- X in D.
  assert (W : snd (decode_rune s) = String.length (encode_rune (fst (decode_rune s)))) by (rewrite D; reflexivity). rewrite W.
  set (e := encode_rune (fst (decode_rune s))) in *. clearbody e. rewrite X. symmetry. apply stake_app.
Qed.
Lemma escaped_length r : 1 <= String.length (escaped_rune is_print r).
Proof.
  unfold escaped_rune. repeat match goal with |- context [if ?b then _ else _] => destruct b end; try (cbn; lia).
  destruct (encode_rune r) eqn:E; [now apply encode_rune_nonempty in E|cbn; lia].
Qed.
Lemma read_body : forall n s fuel u, String.length s <= n -> String.length (quote_body is_print n s) < fuel ->
  read_string fuel (quote_body is_print n s ++ String quote_sign u) = Some (s, u).
Proof.
  induction n as [|n IH]; intros s fuel u L Lf.
  - destruct s; [|cbn in L; lia]. destruct fuel; [lia|]. reflexivity.
  - destruct s as [|a s]; [destruct fuel; [lia|]; reflexivity|]. destruct fuel as [|fuel]; [lia|].
    assert (Ne : String a s <> "") by discriminate. assert (W := decode_width _ Ne). assert (V := decode_valid (String a s)). assert (T := width_take _ Ne). assert (Sd := stake_sdrop (snd (decode_rune (String a s))) (String a s)). assert (Ld := sdrop_length (snd (decode_rune (String a s))) (String a s)).
    cbn [quote_body] in Lf |- *. destruct (decode_rune (String a s)) as [r w] eqn:D. cbn [fst snd] in *. rewrite sapp_assoc. rewrite slength_app in Lf. assert (El := escaped_length r). cbn [String.length] in *.
    destruct ((w =? 1)%nat && (r =? rune_error)%N) eqn:B.
    + apply andb_prop in B as [B _]. apply Nat.eqb_eq in B. subst w. change (String backslash ("x" ++ hexes 2 (byte_of a)) ++ quote_body is_print n (sdrop 1 (String a s)) ++ String quote_sign u) with (String backslash (("x" ++ hexes 2 (byte_of a)) ++ quote_body is_print n (sdrop 1 (String a s)) ++ String quote_sign u)).
      rewrite sapp_assoc. rewrite (read_escaped _ _ _ _ (escape_x (byte_of a) _ (byte_of_lt a))).
      rewrite byte_byte_of. cbn [sdrop] in *. cbn [String.length] in Lf. rewrite IH by lia. reflexivity.
    + rewrite read_escaped_rune by exact V. rewrite IH by lia. cbn [prepend]. rewrite T by reflexivity. rewrite Sd. reflexivity.
Qed.
Lemma read_quote s u : read_string (S (String.length (quote_body is_print (String.length s) s ++ String quote_sign u))) (quote_body is_print (String.length s) s ++ String quote_sign u) = Some (s, u).
Proof. apply read_body; [lia|]. rewrite slength_app. lia. Qed.
End Quoting.

(** ** Tokens *)

Lemma span_shorter p : forall s x u, span p s = (x, u) -> String.length s = String.length x + String.length u.
Proof.
  induction s as [|a s IH]; intros x u E; cbn [span] in E; [injection E as <- <-; reflexivity|]. destruct (p a); [|injection E as <- <-; reflexivity].
  destruct (span p s) as [y v] eqn:E'. injection E as <- <-. specialize (IH _ _ eq_refl). cbn. lia.
Qed.
Lemma digits_shorter b k : forall acc s n u, read_digits b k acc s = Some (n, u) -> String.length u <= String.length s.
Proof.
  induction k as [|k IH]; intros acc s n u E; cbn [read_digits] in E; [injection E as <- <-; lia|]. destruct s as [|a s]; [discriminate|]. destruct (digit_value a) as [d|]; [|discriminate]. destruct (d <? b)%N; [|discriminate].
  apply IH in E. cbn. lia.
Qed.
Lemma escape_shorter s v u : read_escape s = Some (v, u) -> String.length u <= String.length s.
Proof.
  assert (G : forall b k t x, match read_digits b k 0 t with Some (n, u) => if x n : bool then Some (encode_rune n, u) else None | None => None end = Some (v, u) -> String.length u <= String.length t).
  { intros b k t x. destruct (read_digits b k 0 t) as [[n y]|] eqn:E; [|discriminate]. apply digits_shorter in E. destruct (x n); [|discriminate]. intros [= _ <-]. exact E. }
  assert (G' : forall b k t x, match read_digits b k 0 t with Some (n, u) => if x n : bool then Some (String (byte n) "", u) else None | None => None end = Some (v, u) -> String.length u <= String.length t).
  { intros b k t x. destruct (read_digits b k 0 t) as [[n y]|] eqn:E; [|discriminate]. apply digits_shorter in E. destruct (x n); [|discriminate]. intros [= _ <-]. exact E. }
  unfold read_escape. destruct s as [|a t]; [discriminate|]. cbv zeta. assert (L : String.length t <= String.length (String a t)) by (cbn; lia).
  repeat match goal with |- (if ?b then Some _ else _) = _ -> _ => destruct b; [intros [= _ <-]; exact L|] end.
  destruct (_ =? _)%N; [intros H; apply (G' 16%N 2 t (fun _ => true)) in H; lia|]. destruct (_ =? _)%N; [intros H; apply G in H; lia|]. destruct (_ =? _)%N; [intros H; apply G in H; lia|].
  intros H. apply (G' 8%N 3 _ (fun n => (n <? 256)%N)) in H. exact H.
Qed.
Lemma string_shorter : forall f s v u, read_string f s = Some (v, u) -> String.length u < String.length s.
Proof.
  induction f as [|f IH]; intros s v u E; [discriminate|]. cbn [read_string] in E. destruct s as [|a t]; [discriminate|]. destruct (byte_of a =? 34)%N; [injection E as <- <-; cbn; lia|].
  destruct (byte_of a =? 92)%N.
  - destruct (read_escape t) as [[x y]|] eqn:E1; [|discriminate]. destruct (read_string f y) as [[x' y']|] eqn:E2; [|discriminate]. injection E as <- <-. apply escape_shorter in E1. apply IH in E2. cbn. lia.
  - assert (W := decode_width (String a t) ltac:(discriminate)). destruct (decode_rune (String a t)) as [r w]. cbn [snd] in W. destruct (_ || _); [discriminate|]. destruct (read_string f (sdrop w (String a t))) as [[x' y']|] eqn:E2; [|discriminate]. injection E as <- <-. apply IH in E2. rewrite sdrop_length in E2. lia.
Qed.
Lemma tokens_enough : forall f g s, String.length s < f -> String.length s < g -> tokens f s = tokens g s.
Proof.
  induction f as [|f IH]; intros [|g] s Lf Lg; try lia. cbn [tokens]. destruct s as [|a t]; [reflexivity|]. cbn [String.length] in *.
  destruct (_ || _); [apply IH; lia|]. destruct (byte_of a =? 10)%N; [f_equal; apply IH; lia|].
  destruct (byte_of a =? 34)%N.
  { destruct (read_string _ t) as [[v u]|] eqn:E; [|reflexivity]. apply string_shorter in E. f_equal. apply IH; lia. }
  destruct (String.prefix _ _).
  { destruct (span _ t) as [x u] eqn:E. apply span_shorter in E. apply IH; cbn; lia. }
  destruct (sign_byte a); [f_equal; apply IH; lia|].
  destruct (digit_byte a) eqn:Da.
  { destruct (span digit_byte (String a t)) as [x u] eqn:E. assert (X := span_shorter _ _ _ _ E). cbn [span] in E. rewrite Da in E. destruct (span digit_byte t). injection E as <- <-. cbn [String.length] in X. destruct (number _); [|reflexivity]. f_equal. apply IH; lia. }
  destruct (name_byte a) eqn:Na; [|reflexivity].
  destruct (span _ (String a t)) as [x u] eqn:E. assert (X := span_shorter _ _ _ _ E). cbn [span] in E. rewrite Na in E. cbn [orb] in E. destruct (span _ t). injection E as <- <-. cbn [String.length] in X. f_equal. apply IH; lia.
Qed.
Definition lexes (s : string) : option (list token) := tokens (S (String.length s)) s.
Lemma lexes_eq f s : String.length s < f -> tokens f s = lexes s.
Proof. intros L. apply tokens_enough; lia. Qed.

Lemma lex_blank s : lexes (String " " s) = lexes s.
Proof. unfold lexes at 1. cbn [String.length]. remember (S (String.length s)) as f. cbn [tokens]. change (byte_of " ") with 32%N. cbn [N.eqb Pos.eqb orb]. apply lexes_eq. lia. Qed.
Lemma lex_line s : lexes (String (byte 10) s) = cons_token TLine (lexes s).
Proof. unfold lexes at 1. cbn [String.length]. remember (S (String.length s)) as f. cbn [tokens]. change (byte_of (byte 10)) with 10%N. cbn [N.eqb Pos.eqb orb]. f_equal. apply lexes_eq. lia. Qed.
Lemma span_all p : forall x s, (forall c t, s = String c t -> p c = false) -> forallb p (list_ascii_of_string x) = true -> span p (x ++ s) = (x, s).
Proof.
  induction x as [|a x IH]; intros s N A; cbn [append span].
  - destruct s as [|c t]; [reflexivity|]. cbn [span]. now rewrite (N _ _ eq_refl).
  - cbn in A. apply andb_prop in A as [A B]. rewrite A, IH by assumption. reflexivity.
Qed.
Lemma sign_not_others a : sign_byte a = true ->
  ((byte_of a =? 32)%N || (byte_of a =? 9)%N || (byte_of a =? 13)%N = false) /\ (byte_of a =? 10)%N = false /\ (byte_of a =? 34)%N = false /\ forall s, String.prefix "//" (String a s) = false.
Proof. destruct a as [[] [] [] [] [] [] [] []]; try discriminate; intros _; repeat split. Qed.
Lemma lex_sign a s : sign_byte a = true -> lexes (String a s) = cons_token (TSign a) (lexes s).
Proof.
  intros H. destruct (sign_not_others a H) as (A & B & C & D). unfold lexes at 1. remember (String.length (String a s)) as f. cbn [tokens]. rewrite A, B, C, D, H. f_equal. apply lexes_eq. subst f. cbn. lia.
Qed.
Lemma digit_not_others a : digit_byte a = true ->
  ((byte_of a =? 32)%N || (byte_of a =? 9)%N || (byte_of a =? 13)%N = false) /\ (byte_of a =? 10)%N = false /\ (byte_of a =? 34)%N = false /\ (forall s, String.prefix "//" (String a s) = false) /\ sign_byte a = false.
Proof. destruct a as [[] [] [] [] [] [] [] []]; try discriminate; intros _; repeat split. Qed.
Lemma lex_number a x s n : digit_byte a = true -> forallb digit_byte (list_ascii_of_string x) = true -> (forall c t, s = String c t -> digit_byte c = false) -> number (String a x) = Some n ->
  lexes (String a x ++ s) = cons_token (TNumber n) (lexes s).
Proof.
  intros H X Ns E. destruct (digit_not_others a H) as (A & B & C & D & F). unfold lexes at 1. remember (String.length (String a x ++ s)) as f. cbn [tokens append]. rewrite A, B, C, D, F, H.
  change (String a (x ++ s)) with (String a x ++ s). rewrite span_all; [|exact Ns|cbn; now rewrite H, X]. rewrite E. f_equal. apply lexes_eq. subst f. cbn. rewrite slength_app. lia.
Qed.
Definition name_part (c : ascii) : bool := name_byte c || digit_byte c.
Lemma name_not_others a : name_byte a = true ->
  ((byte_of a =? 32)%N || (byte_of a =? 9)%N || (byte_of a =? 13)%N = false) /\ (byte_of a =? 10)%N = false /\ (byte_of a =? 34)%N = false /\ (forall s, String.prefix "//" (String a s) = false) /\ sign_byte a = false /\ digit_byte a = false.
Proof. destruct a as [[] [] [] [] [] [] [] []]; try discriminate; intros _; repeat split. Qed.
Lemma lex_name a x s : name_byte a = true -> forallb name_part (list_ascii_of_string x) = true -> (forall c t, s = String c t -> name_part c = false) ->
  lexes (String a x ++ s) = cons_token (TName (String a x)) (lexes s).
Proof.
  intros H X Ns. destruct (name_not_others a H) as (A & B & C & D & F & G). unfold lexes at 1. remember (String.length (String a x ++ s)) as f. cbn [tokens append]. rewrite A, B, C, D, F, G, H.
  change (String a (x ++ s)) with (String a x ++ s). rewrite span_all; [|exact Ns|]. 2:{ cbn [list_ascii_of_string forallb]. rewrite H. exact X. } f_equal. apply lexes_eq. subst f. cbn. rewrite slength_app. lia.
Qed.
Lemma lex_comment x s : no_char (byte 10) x = true -> lexes ("//" ++ x ++ String (byte 10) s) = lexes (String (byte 10) s).
Proof.
  intros X. unfold lexes at 1. remember (String.length ("//" ++ x ++ String (byte 10) s)) as f. cbn [tokens append].
  change (byte_of "/") with 47%N. cbn [N.eqb Pos.eqb orb]. change (String.prefix "//" (String "/" (String "/" (x ++ String (byte 10) s)))) with (String.prefix "" (x ++ String (byte 10) s)).
  replace (String.prefix "" (x ++ String (byte 10) s)) with true by (destruct x; reflexivity). change (String "/" (x ++ String (byte 10) s)) with (String "/" x ++ String (byte 10) s). rewrite span_all.
  - cbn [snd]. apply lexes_eq. subst f. cbn. rewrite slength_app. cbn. lia.
  - intros c t [= <- _]. reflexivity.
  - cbn [list_ascii_of_string forallb]. change (negb (byte_of "/" =? 10)%N) with true. cbn [andb]. clear Heqf. induction x as [|a x IH]; [reflexivity|]. cbn in X. apply andb_prop in X as [X1 X2]. cbn [list_ascii_of_string forallb]. rewrite IH by exact X2. rewrite andb_true_r.
    destruct (N.eqb_spec (byte_of a) 10) as [E|]; [|reflexivity]. rewrite <- (byte_byte_of a), E in X1. rewrite Ascii.eqb_refl in X1. discriminate.
Qed.
Section Source.
Variable is_print : N -> bool.
Hypothesis Pr : forall r, is_print r = true -> source_rune r = true.
Lemma lex_quote s u : lexes (quote is_print s ++ u) = cons_token (TString s) (lexes u).
Proof.
  unfold quote. change (String quote_sign (quote_body is_print (String.length s) s ++ String quote_sign "") ++ u) with (String quote_sign ((quote_body is_print (String.length s) s ++ String quote_sign "") ++ u)).
  rewrite sapp_assoc. change (String quote_sign "" ++ u) with (String quote_sign u). unfold lexes at 1. remember (String.length (String quote_sign _)) as f. cbn [tokens]. change (byte_of quote_sign) with 34%N. cbn [N.eqb Pos.eqb orb].
  rewrite (read_quote is_print Pr). f_equal. apply lexes_eq. subst f. cbn [String.length]. rewrite slength_app. cbn. lia.
Qed.

Definition app_tokens (l : list token) (o : option (list token)) : option (list token) := match o with Some m => Some (l ++ m)%list | None => None end.
Lemma cons_app t o : cons_token t o = app_tokens [t] o. Proof. destruct o; reflexivity. Qed.
Lemma app_app l m o : app_tokens l (app_tokens m o) = app_tokens (l ++ m) o. Proof. destruct o; cbn; [rewrite app_assoc|]; reflexivity. Qed.

Definition int_tokens (z : Z) : list token :=
  match z with Z0 => [TNumber 0] | Zpos p => [TNumber (Npos p)] | Zneg p => [TSign "-"; TNumber (Npos p)] end.
Lemma uint_digits : forall d, forallb digit_byte (list_ascii_of_string (NilEmpty.string_of_uint d)) = true.
Proof. induction d; cbn [NilEmpty.string_of_uint list_ascii_of_string forallb]; rewrite ?IHd; reflexivity. Qed.
Lemma pos_number p : exists a x, NilEmpty.string_of_uint (Pos.to_uint p) = String a x /\ digit_byte a = true /\ forallb digit_byte (list_ascii_of_string x) = true /\ number (String a x) = Some (Npos p).
Proof.
  assert (D := uint_digits (Pos.to_uint p)). assert (V := DecimalN.Unsigned.of_to (Npos p)). cbn [N.to_uint] in V. assert (T := DecimalN.Unsigned.to_of (Pos.to_uint p)). rewrite V in T. cbn [N.to_uint] in T.
  assert (Nz : forall d, Pos.to_uint p <> Decimal.D0 d).
  { intros d E. rewrite E in T. unfold unorm in T. destruct (nzhead (Decimal.D0 d)) eqn:Z; try discriminate.
    - injection T as ->. rewrite E in V. discriminate.
    - now apply nzhead_nonzero in Z. }
  destruct (NilEmpty.string_of_uint (Pos.to_uint p)) as [|a x] eqn:E.
  - destruct (Pos.to_uint p); try discriminate.
  - exists a, x. split; [reflexivity|]. cbn in D. apply andb_prop in D as [D1 D2]. split; [exact D1|]. split; [exact D2|]. rewrite <- E. unfold number. rewrite NilEmpty.usu.
    destruct (Pos.to_uint p) eqn:P; try (elim (Nz _ eq_refl)); try (rewrite V; reflexivity).
Qed.
Lemma lex_decimal z u : lexes (decimal z ++ String "}" u) = app_tokens (int_tokens z) (lexes (String "}" u)).
Proof.
  assert (B : forall c t, String "}" u = String c t -> digit_byte c = false) by (intros c t [= <- _]; reflexivity).
  destruct z as [|p|p]; cbn [decimal int_tokens].
  - change ("0" ++ String "}" u) with (String "0" "" ++ String "}" u). rewrite (lex_number "0" "" _ 0%N) by (try reflexivity; exact B). apply cons_app.
  - destruct (pos_number p) as (a & x & E & H1 & H2 & H3). rewrite E, (lex_number a x _ _ H1 H2 B H3). apply cons_app.
  - destruct (pos_number p) as (a & x & E & H1 & H2 & H3). rewrite E. change (String "-" (String a x) ++ String "}" u) with (String "-" (String a x ++ String "}" u)). rewrite lex_sign by reflexivity. rewrite (lex_number a x _ _ H1 H2 B H3), !cons_app, app_app. reflexivity.
Qed.

(** The literals without the name of the package. *)
Definition bare_word (w : dword) : string :=
  "Word{Word:" ++ quote is_print (dw_word w) ++ ", Def:" ++ quote is_print (dw_def w) ++
  ", By:" ++ quote is_print (dw_by w) ++ ", Score:" ++ decimal (dw_score w) ++ "}".
Definition bare_entry (e : string * dword) : string := quote is_print (fst e) ++ ":" ++ bare_word (snd e).
Fixpoint bare_entries (l : list (string * dword)) : string :=
  match l with [] => "" | [e] => bare_entry e | e :: l => bare_entry e ++ ", " ++ bare_entries l end.
Definition entry_tokens (e : string * dword) : list token :=
  ([TString (fst e); TSign ":"; TName "Word"; TSign "{"; TName "Word"; TSign ":"; TString (dw_word (snd e)); TSign ","; TName "Def"; TSign ":"; TString (dw_def (snd e)); TSign ",";
    TName "By"; TSign ":"; TString (dw_by (snd e)); TSign ","; TName "Score"; TSign ":"] ++ int_tokens (dw_score (snd e)) ++ [TSign "}"])%list.
Fixpoint entries_tokens (l : list (string * dword)) : list token :=
  match l with [] => [] | [e] => entry_tokens e | e :: l => (entry_tokens e ++ TSign "," :: entries_tokens l)%list end.
Ltac stop := let H := fresh in intros ? ? H; injection H; intros _ <-; reflexivity.
Lemma lex_entry e u : lexes (bare_entry e ++ u) = app_tokens (entry_tokens e) (lexes u).
Proof.
  destruct e as [k [w d b n]]. unfold bare_entry, bare_word, entry_tokens. cbn [fst snd dw_word dw_def dw_by dw_score]. rewrite !sapp_assoc. rewrite lex_quote.
  change (":" ++ "Word{Word:" ++ ?x) with (String ":" ("Word" ++ String "{" ("Word" ++ String ":" x))).
  rewrite lex_sign by reflexivity. rewrite (lex_name "W" "ord") by (try reflexivity; stop). rewrite lex_sign by reflexivity. rewrite (lex_name "W" "ord") by (try reflexivity; stop). rewrite lex_sign by reflexivity. rewrite lex_quote.
  change (", Def:" ++ ?x) with (String "," (String " " ("Def" ++ String ":" x))). rewrite lex_sign by reflexivity. rewrite lex_blank. rewrite (lex_name "D" "ef") by (try reflexivity; stop). rewrite lex_sign by reflexivity. rewrite lex_quote.
  change (", By:" ++ ?x) with (String "," (String " " ("By" ++ String ":" x))). rewrite lex_sign by reflexivity. rewrite lex_blank. rewrite (lex_name "B" "y") by (try reflexivity; stop). rewrite lex_sign by reflexivity. rewrite lex_quote.
  change (", Score:" ++ ?x) with (String "," (String " " ("Score" ++ String ":" x))). rewrite lex_sign by reflexivity. rewrite lex_blank. rewrite (lex_name "S" "core") by (try reflexivity; stop). rewrite lex_sign by reflexivity.
  change ("}" ++ u) with (String "}" u). rewrite lex_decimal, lex_sign by reflexivity. rewrite !cons_app, !app_app. reflexivity.
Qed.
Lemma lex_entries : forall l u, lexes (bare_entries l ++ u) = app_tokens (entries_tokens l) (lexes u).
Proof.
  induction l as [|e [|e' l] IH]; intros u.
  - cbn [bare_entries append entries_tokens]. destruct (lexes u); reflexivity.
  - apply lex_entry.
  - change (bare_entries (e :: e' :: l)) with (bare_entry e ++ ", " ++ bare_entries (e' :: l)). rewrite !sapp_assoc, lex_entry. change (", " ++ ?x) with (String "," (String " " x)). rewrite lex_sign by reflexivity. rewrite lex_blank, IH.
    rewrite cons_app, !app_app. f_equal. change (entries_tokens (e :: e' :: l)) with (entry_tokens e ++ TSign "," :: entries_tokens (e' :: l))%list. rewrite <- app_assoc. reflexivity.
Qed.

(** ** Reading *)

Lemma eat_sign a l : eat [TSign a] (TSign a :: l) = Some l. Proof. cbn [eat eats]. now rewrite Ascii.eqb_refl. Qed.
Lemma entry_read e l : read_entry (entry_tokens e ++ l)%list = Some (e, l).
Proof.
  destruct e as [k [w d b n]]. unfold entry_tokens. cbn [fst snd dw_word dw_def dw_by dw_score]. destruct n as [|p|p]; reflexivity.
Qed.
Lemma entry_open e l : eat [TSign "}"] (entry_tokens e ++ l)%list = None. Proof. reflexivity. Qed.
Lemma entries_read : forall es f l, List.length es < f -> read_entries f (entries_tokens es ++ TSign "}" :: l)%list = Some (es, l).
Proof.
  induction es as [|e [|e' es] IH]; intros [|f] l L; try (cbn in L; lia).
  - reflexivity.
  - cbn [read_entries entries_tokens]. rewrite entry_open, entry_read. reflexivity.
  - change (entries_tokens (e :: e' :: es)) with (entry_tokens e ++ TSign "," :: entries_tokens (e' :: es))%list. rewrite <- app_assoc. cbn [read_entries]. rewrite entry_open, entry_read.
    match goal with |- context [eat [TSign ","] ?x] => change (eat [TSign ","] x) with (Some (entries_tokens (e' :: es) ++ TSign "}" :: l)%list) end. cbv iota.
    rewrite IH by (cbn in *; lia). reflexivity.
Qed.
Lemma keys_distinct l : NoDup (map fst l) -> distinct_keys l = true.
Proof.
  induction l as [|[k w] l IH]; intros N; [reflexivity|]. cbn [distinct_keys]. inversion_clear N as [|? ? N1 N2]. rewrite (IH N2), andb_true_r. apply negb_true_iff, not_true_is_false. intros E. apply existsb_exists in E as ([k' w'] & I & E). apply String.eqb_eq in E. cbn in E. subst k'. apply N1. apply in_map_iff. exists (k, w'). auto.
Qed.
Lemma tokens_length : forall l, List.length l <= List.length (entries_tokens l).
Proof.
  induction l as [|e [|e' l] IH]; [cbn; lia|destruct e; cbn; lia|]. change (entries_tokens (e :: e' :: l)) with (entry_tokens e ++ TSign "," :: entries_tokens (e' :: l))%list. rewrite app_length. cbn [List.length] in *. lia.
Qed.

(** ** The whole file *)

Definition bare_source (comment : string) (l : list (string * dword)) : string :=
  "package dict" ++ newline ++ "// Words contains the dictionary of words." ++ newline ++
  "// Last updated: " ++ comment ++ newline ++ "var Words = " ++ ("map[string]Word{" ++ bare_entries l ++ "}") ++ newline.
Lemma bare_declared comment l : no_char (byte 10) comment = true -> NoDup (map fst l) -> declared (bare_source comment l) = Some l.
Proof.
  intros C N. unfold declared. rewrite lexes_eq by lia.
  assert (E : bare_source comment l = "package" ++ String " " ("dict" ++ String (byte 10) ("//" ++ " Words contains the dictionary of words." ++ String (byte 10) ("//" ++ (" Last updated: " ++ comment) ++
    String (byte 10) ("var" ++ String " " ("Words" ++ String " " (String "=" (String " " ("map" ++ String "[" ("string" ++ String "]" ("Word" ++ String "{" (bare_entries l ++ String "}" (String (byte 10) ""))))))))))))) by (unfold bare_source; rewrite !sapp_assoc; reflexivity).
  rewrite E. clear E.
  rewrite (lex_name "p" "ackage") by (try reflexivity; stop). rewrite lex_blank. rewrite (lex_name "d" "ict") by (try reflexivity; stop). rewrite lex_line.
  rewrite lex_comment by reflexivity. rewrite lex_line.
  rewrite lex_comment by (cbn; exact C). rewrite lex_line.
  rewrite (lex_name "v" "ar") by (try reflexivity; stop). rewrite lex_blank. rewrite (lex_name "W" "ords") by (try reflexivity; stop). rewrite lex_blank, lex_sign by reflexivity. rewrite lex_blank. rewrite (lex_name "m" "ap") by (try reflexivity; stop).
  rewrite lex_sign by reflexivity. rewrite (lex_name "s" "tring") by (try reflexivity; stop). rewrite lex_sign by reflexivity. rewrite (lex_name "W" "ord") by (try reflexivity; stop). rewrite lex_sign by reflexivity.
  rewrite lex_entries. rewrite lex_sign by reflexivity. rewrite lex_line. change (lexes "") with (Some (@nil token)). cbn [cons_token app_tokens].
  cbn [lines eat eats]. cbn [Ascii.eqb Bool.eqb String.eqb]. cbn [eat eats lines Ascii.eqb Bool.eqb String.eqb].
  rewrite entries_read; [cbn [lines]; now rewrite keys_distinct|]. rewrite app_length. assert (T := tokens_length l). lia.
Qed.

(** ** Erasing the source *)

Definition clean (s : string) : Prop := ~ occurs "dict." (quote is_print s).
Definition clean_word (w : dword) : Prop := clean (dw_word w) /\ clean (dw_def w) /\ clean (dw_by w).
Definition clean_entry (e : string * dword) : Prop := clean (fst e) /\ clean_word (snd e).
Lemma erase_quote s u : clean s -> erased (quote is_print s ++ u) = quote is_print s ++ erased u.
Proof.
  intros C. unfold clean in C. assert (E : exists q, quote is_print s = q ++ String quote_sign "") by (exists (String quote_sign (quote_body is_print (String.length s) s)); reflexivity).
  destruct E as (q & E). rewrite E in *. rewrite erase_left by reflexivity. now rewrite erase_clean.
Qed.
Lemma no_d_clean s : no_char "d" s = true -> ~ occurs "dict." s.
Proof. intros N (a & b & ->). induction a as [|c a IH]; [discriminate|]. cbn in N. apply andb_prop in N as [_ N]. auto. Qed.
Lemma decimal_clean z : no_char "d" (decimal z) = true.
Proof.
  assert (U : forall d, no_char "d" (NilEmpty.string_of_uint d) = true) by (induction d; cbn; auto). destruct z; cbn [decimal]; [reflexivity|apply U|cbn; apply U].
Qed.
Lemma erase_word w u : clean_word w -> erased (word_literal is_print w ++ u) = bare_word w ++ erased u.
Proof.
  intros (C1 & C2 & C3). unfold word_literal, bare_word. rewrite !sapp_assoc.
  change "dict.Word{Word:" with ("dict.Word{Word" ++ ":"). rewrite erase_left by reflexivity. change (erased ("dict.Word{Word" ++ ":")) with "Word{Word:". rewrite erase_quote by exact C1.
  change ", Def:" with (", Def" ++ ":"). rewrite erase_left by reflexivity. change (erased (", Def" ++ ":")) with (", Def" ++ ":"). rewrite erase_quote by exact C2.
  change ", By:" with (", By" ++ ":"). rewrite erase_left by reflexivity. change (erased (", By" ++ ":")) with (", By" ++ ":"). rewrite erase_quote by exact C3.
  change ", Score:" with (", Score" ++ ":"). rewrite erase_left by reflexivity. change (erased (", Score" ++ ":")) with (", Score" ++ ":").
  change ("}" ++ u) with (String "}" u). rewrite erase_right by reflexivity. rewrite (erase_clean _ (decimal _)) by (try discriminate; apply no_d_clean, decimal_clean). reflexivity.
Qed.
Lemma erase_entry e u : clean_entry e -> erased (entry_literal is_print e ++ u) = bare_entry e ++ erased u.
Proof.
  intros [C1 C2]. unfold entry_literal, bare_entry. rewrite !sapp_assoc. rewrite erase_quote by exact C1. f_equal. change ":" with ("" ++ ":"). rewrite erase_left by reflexivity. change (erased ("" ++ ":")) with ("" ++ ":"). f_equal. now apply erase_word.
Qed.
Lemma erase_entries : forall l u, Forall clean_entry l -> erased (entries_literal is_print l ++ u) = bare_entries l ++ erased u.
Proof.
  induction l as [|e [|e' l] IH]; intros u C.
  - reflexivity.
  - apply erase_entry. now inversion C.
  - inversion_clear C as [|? ? C1 C2]. change (entries_literal is_print (e :: e' :: l)) with (entry_literal is_print e ++ ", " ++ entries_literal is_print (e' :: l)). change (bare_entries (e :: e' :: l)) with (bare_entry e ++ ", " ++ bare_entries (e' :: l)).
    rewrite !sapp_assoc, erase_entry by exact C1. f_equal. change ", " with ("," ++ " "). rewrite erase_left by reflexivity. change (erased ("," ++ " ")) with ("," ++ " "). f_equal. apply IH, C2.
Qed.
Lemma erase_source now l : Forall clean_entry l -> generated is_print now l = bare_source (erased (now ++ ".")) l.
Proof.
  intros C. unfold generated.
  assert (E : source is_print now l = ((("package dict" ++ String (byte 10) ("// Words contains the dictionary of words." ++ String (byte 10) "// Last updated:")) ++ " ") ++ (now ++ ".") ++
    String (byte 10) ("var Words = map[string]dict.Word{" ++ entries_literal is_print l ++ String "}" (String (byte 10) "")))) by (unfold source, map_literal, newline; rewrite !sapp_assoc; reflexivity).
  rewrite E. rewrite erase_left by reflexivity. rewrite (erase_right (byte 10)) by reflexivity.
  assert (E' : String (byte 10) ("var Words = map[string]dict.Word{" ++ entries_literal is_print l ++ String "}" (String (byte 10) "")) =
    (String (byte 10) "var Words = map[string]dict.Word" ++ "{") ++ entries_literal is_print l ++ String "}" (String (byte 10) "")) by reflexivity.
  rewrite E'. rewrite erase_left by reflexivity. rewrite erase_entries by exact C. generalize (erased (now ++ ".")). intros cm. unfold bare_source. rewrite !sapp_assoc. reflexivity.
Qed.

Theorem generated_declares now l : no_char (byte 10) now = true -> NoDup (map fst l) -> Forall clean_entry l -> declared (generated is_print now l) = Some l.
Proof.
  intros N D C. rewrite erase_source by exact C. apply bare_declared; [|exact D]. apply erase_line. clear -N. induction now as [|a s IH]; [reflexivity|]. cbn in *. apply andb_prop in N as [-> N]. now apply IH.
Qed.
End Source.
