(** What is written as JSON is read back, with U+FFFD for bytes that are not UTF-8. *)

From Coq Require Import Ascii String List Bool Arith NArith Lia.
From Verif Require Import Base Utf8 Utf8Facts DictGen DictRead DictGenFacts Json JsonRead.
Import ListNotations.
Open Scope list_scope.
Open Scope nat_scope.
Open Scope string_scope.

Definition shown (s : string) : string := of_runes (runes s).

Lemma unescaped fuel t v u : json_unescape t = Some (v, u) -> json_chars (S fuel) (String backslash t) = prepend v (json_chars fuel u).
Proof. intros E. cbn [json_chars]. change (byte_of backslash) with 92%N. cbn [N.eqb Pos.eqb]. rewrite E. reflexivity. Qed.
Lemma unescape_u n u : (n < 0x10000)%N -> valid_rune n = true -> json_unescape ("u" ++ hexes 4 n ++ u) = Some (encode_rune n, u).
Proof. intros L V. cbn [append json_unescape]. change (byte_of "u") with 117%N. cbn [N.eqb Pos.eqb orb]. rewrite read_hexes by exact L. rewrite N.mul_0_l, N.add_0_l, V. reflexivity. Qed.
Lemma raw_read fuel r u : valid_rune r = true -> (32 <= r)%N -> r <> 34%N -> r <> 92%N -> json_chars (S fuel) (encode_rune r ++ u) = prepend (encode_rune r) (json_chars fuel u).
Proof.
  intros V L N1 N2. assert (D := decode_encode_app r u V). destruct (encode_rune r) as [|a x] eqn:E; [now apply encode_rune_nonempty in E|].
  assert (A : byte_of a <> 34%N /\ byte_of a <> 92%N /\ (32 <= byte_of a)%N).
  { unfold encode_rune in E. rewrite V in E. destruct (N.ltb_spec r 128) as [E0|E0]; [assert (X : a = byte r) by congruence; rewrite X; rewrite byte_of_byte by lia; auto|].
    apply valid_rune_spec in V. destruct (N.ltb_spec r 2048) as [E1|E1]; [|destruct (N.ltb_spec r 65536) as [E2|E2]]; match type of E with String ?b _ = String _ _ => assert (X : a = b) by congruence; rewrite X; clear X E end.
    - assert (r / 64 < 32)%N by (apply N.div_lt_upper_bound; lia). rewrite byte_of_byte by lia. lia.
    - assert (r / 4096 < 16)%N by (apply N.div_lt_upper_bound; lia). rewrite byte_of_byte by lia. lia.
    - assert (r / 262144 < 5)%N by (apply N.div_lt_upper_bound; lia). rewrite byte_of_byte by lia. lia. }
  destruct A as (A1 & A2 & A3). cbn [append json_chars]. rewrite (proj2 (N.eqb_neq _ _) A1), (proj2 (N.eqb_neq _ _) A2). destruct (N.ltb_spec (byte_of a) 32); [lia|].
  change (String a (x ++ u)) with (String a x ++ u). rewrite D.
  assert (W : (String.length (String a x) =? 1)%nat && (r =? rune_error)%N = false).
  { destruct (N.eqb_spec r rune_error) as [->|]; [|apply andb_false_r]. vm_compute in E. injection E as <- <-. reflexivity. }
  rewrite W, sdrop_app, E. reflexivity.
Qed.

(** What is written for the first character of a text. *)
Definition chunk (s : string) : string :=
  match s with
  | "" => ""
  | String a t =>
      let b := byte_of a in
      if (b <? 128)%N then (if html_safe b then String a "" else String backslash (json_escape b))
      else let (r, w) := decode_rune s in
        if (r =? rune_error)%N && (w =? 1)%nat then String backslash "ufffd"
        else if (r =? 0x2028)%N || (r =? 0x2029)%N then String backslash ("u202" ++ hexes 1 (r mod 16)%N)
        else stake w s
  end.
Lemma body_chunk n s : s <> "" -> json_body (S n) s = chunk s ++ json_body n (sdrop (snd (decode_rune s)) s).
Proof.
  destruct s as [|a t]; [congruence|]. intros _. cbn [json_body chunk]. destruct (byte_of a <? 128)%N eqn:B.
  - cbn [decode_rune]. rewrite B. reflexivity.
  - destruct (decode_rune (String a t)). reflexivity.
Qed.
Lemma small_read fuel b u : (b < 128)%N -> html_safe b = false -> json_chars (S fuel) (String backslash (json_escape b) ++ u) = prepend (String (byte b) "") (json_chars fuel u).
Proof.
  intros L H. unfold json_escape. cbn [append]. apply unescaped. destruct (N.eqb_spec b 92) as [->|N1]; [reflexivity|]. destruct (N.eqb_spec b 34) as [->|N2]; [reflexivity|]. cbn [orb].
  destruct (N.eqb_spec b 10) as [->|N3]; [reflexivity|]. destruct (N.eqb_spec b 13) as [->|N4]; [reflexivity|]. destruct (N.eqb_spec b 9) as [->|N5]; [reflexivity|].
  assert (E : ("u00" ++ hexes 2 b) ++ u = "u" ++ hexes 4 b ++ u).
  { cbn [hexes append]. repeat (rewrite ?sapp_assoc; cbn [append]). assert (b / 16 < 16)%N by (apply N.div_lt_upper_bound; lia). assert (Z : (b / 16 / 16 = 0)%N) by (apply N.div_small; lia). rewrite Z. reflexivity. }
  change (String "u" (String "0" (String "0" (hexes 2 b))) ++ u) with (("u00" ++ hexes 2 b) ++ u). rewrite E, unescape_u; [|lia|apply valid_rune_spec; lia]. rewrite encode_small by exact L. reflexivity.
Qed.
Lemma chunk_read fuel s u : s <> "" -> json_chars (S fuel) (chunk s ++ u) = prepend (encode_rune (fst (decode_rune s))) (json_chars fuel u).
Proof.
  intros Ne. destruct s as [|a t]; [congruence|]. cbn [chunk]. destruct (N.ltb_spec (byte_of a) 128) as [B|B].
  - assert (D : decode_rune (String a t) = (byte_of a, 1)) by (cbn [decode_rune]; rewrite (proj2 (N.ltb_lt _ _) B); reflexivity). rewrite D. cbn [fst]. rewrite encode_small by exact B. destruct (html_safe (byte_of a)) eqn:H; [|now apply small_read].
    unfold html_safe in H. apply andb_prop in H as [H1 H2]. apply N.leb_le in H1. apply negb_true_iff in H2. rewrite !orb_false_iff in H2. destruct H2 as ((((H2 & _) & _) & _) & H3). apply N.eqb_neq in H2, H3.
    assert (R := raw_read fuel (byte_of a) u). rewrite encode_small, byte_byte_of in R by exact B. rewrite byte_byte_of. apply R; try assumption. apply valid_rune_spec. lia.
  - assert (T := width_take _ Ne). assert (V := decode_valid (String a t)). assert (B' : (128 <= fst (decode_rune (String a t)))%N).
    { destruct (N.lt_ge_cases (fst (decode_rune (String a t))) 128) as [L|L]; [exfalso|exact L]. assert (E := decode_inv (String a t)). destruct (decode_rune (String a t)) as [r w] eqn:D. cbn [fst snd] in *.
      assert (X : r <> rune_error) by (unfold rune_error; lia). specialize (E Ne X). rewrite encode_small in E by exact L. cbn [append] in E. injection E as E _. rewrite E in B. rewrite byte_of_byte in B by lia. lia. }
    destruct (decode_rune (String a t)) as [r w]. cbn [fst snd] in *. rewrite andb_comm. destruct ((w =? 1)%nat && (r =? rune_error)%N) eqn:Er.
    + apply andb_prop in Er as [_ Er]. apply N.eqb_eq in Er. subst r. cbn [append]. apply unescaped. reflexivity.
    + specialize (T eq_refl). destruct (N.eqb_spec r 0x2028) as [->|N1]; [cbn [orb append]; apply unescaped; reflexivity|]. destruct (N.eqb_spec r 0x2029) as [->|N2]; [cbn [orb append]; apply unescaped; reflexivity|]. cbn [orb].
      rewrite <- T. apply raw_read; [exact V|lia..].
Qed.
Lemma chunk_length s : s <> "" -> 1 <= String.length (chunk s).
Proof.
  intros Ne. destruct s as [|a t]; [congruence|].
  destruct (chunk (String a t)) eqn:E; [|cbn [String.length]; lia]. exfalso. unfold chunk in E. destruct (byte_of a <? 128)%N; [destruct (html_safe _); discriminate|].
  assert (W := decode_width _ Ne). destruct (decode_rune (String a t)) as [r w]. cbn [snd] in W. destruct ((r =? rune_error)%N && (w =? 1)%nat); [discriminate|]. destruct ((r =? 8232)%N || (r =? 8233)%N); [discriminate|]. destruct w; [lia|discriminate].
Qed.
Lemma body_read : forall n s fuel u, String.length s <= n -> String.length (json_body n s) < fuel -> json_chars fuel (json_body n s ++ String quote_sign u) = Some (shown s, u).
Proof.
  induction n as [|n IH]; intros s fuel u L F.
  - destruct s; [|cbn in L; lia]. destruct fuel; [cbn in F; lia|]. reflexivity.
  - destruct s as [|a t]; [destruct fuel; [cbn in F; lia|reflexivity]|]. assert (Ne : String a t <> "") by discriminate. rewrite body_chunk in * by exact Ne. assert (C := chunk_length _ Ne). rewrite slength_app in F.
    destruct fuel as [|fuel]; [lia|]. assert (W := decode_width _ Ne). assert (Ld := sdrop_length (snd (decode_rune (String a t))) (String a t)).
    rewrite sapp_assoc, chunk_read by exact Ne. rewrite IH by (cbn [String.length] in *; lia). cbn [prepend]. unfold shown. rewrite (runes_cons _ Ne). reflexivity.
Qed.
Lemma text_read s u : json_text (json_string s ++ u) = Some (shown s, u).
Proof.
  unfold json_string, json_text. change (String quote_sign (json_body (String.length s) s ++ String quote_sign "") ++ u) with (String quote_sign ((json_body (String.length s) s ++ String quote_sign "") ++ u)). rewrite sapp_assoc. cbn [append].
  change (json_space (String quote_sign ?x)) with (String quote_sign x). cbn [byte_of]. change (byte_of quote_sign =? 34)%N with true. cbv iota. apply body_read; [lia|]. rewrite slength_app. lia.
Qed.
Lemma member_read k v u : json_member (json_string k ++ ":" ++ json_string v ++ u) = Some ((shown k, shown v), u).
Proof.
  unfold json_member. rewrite text_read. assert (E : json_sign ":" (":" ++ json_string v ++ u) = Some (json_string v ++ u)) by reflexivity.
  rewrite E, text_read. reflexivity.
Qed.
Definition tail (l : list (string * string)) : string := fold_right (fun m s => "," ++ json_string (fst m) ++ ":" ++ json_string (snd m) ++ s) "" l.
Lemma members_tail m l : json_members (m :: l) = json_string (fst m) ++ ":" ++ json_string (snd m) ++ tail l.
Proof.
  revert m. induction l as [|[k v] l IH]; intros [k' v']; cbn [fst snd].
  - cbn [json_members tail fold_right]. rewrite sapp_nil_r. reflexivity.
  - change (json_members ((k', v') :: (k, v) :: l)) with (json_string k' ++ ":" ++ json_string v' ++ "," ++ json_members ((k, v) :: l)). rewrite IH. reflexivity.
Qed.
Definition both (m : string * string) : string * string := (shown (fst m), shown (snd m)).
Lemma tail_length l u : List.length l <= String.length (tail l ++ u).
Proof.
  induction l as [|m l IH]; [cbn [List.length]; lia|]. cbn [tail fold_right List.length]. fold (tail l). cbn [append String.length].
  rewrite !slength_app in *. cbn [append String.length]. rewrite !slength_app. lia.
Qed.
Lemma tail_read : forall l f u, List.length l < f -> json_rest f (tail l ++ String "}" u) = Some (map both l, u).
Proof.
  induction l as [|[k v] l IH]; intros [|f] u L; try (cbn in L; lia); [reflexivity|]. cbn [tail fold_right fst snd]. fold (tail l). rewrite !sapp_assoc. cbn [append]. cbn [json_rest].
  change (json_sign "}" (String "," ?x)) with (@None string). change (json_sign "," (String "," ?x)) with (Some x). cbv iota.
  match goal with |- context [json_member ?x] => assert (E : json_member x = Some ((shown k, shown v), tail l ++ String "}" u)) by exact (member_read k v (tail l ++ String "}" u)) end. rewrite E. rewrite IH by (cbn in L; lia). reflexivity.
Qed.
Theorem object_read l : json_object (json_encode l) = Some (map both l).
Proof.
  unfold json_object, json_encode. change (json_sign "{" ("{" ++ ?x)) with (Some x). cbv iota. destruct l as [|m l]; [reflexivity|]. rewrite members_tail, !sapp_assoc.
  assert (N : json_sign "}" (json_string (fst m) ++ ":" ++ json_string (snd m) ++ tail l ++ "}" ++ String (byte 10) "") = None) by reflexivity. rewrite N. clear N.
  rewrite member_read. change ("}" ++ String (byte 10) "") with (String "}" (String (byte 10) "")). rewrite tail_read by (assert (T := tail_length l (String "}" (String (byte 10) ""))); lia). destruct m. reflexivity.
Qed.
