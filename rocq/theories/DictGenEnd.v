(** What the generator makes of a response. *)

From Coq Require Import Ascii String List Bool Arith NArith ZArith Lia.
From Verif Require Import Base Utf8 Utf8Facts Tone Dict DictFacts DictGen DictRead DictGenFacts.
Import ListNotations.
Open Scope list_scope.
Open Scope nat_scope.
Open Scope string_scope.

(** ** Strings without "ict." *)

Section Clean.
Variable is_print : N -> bool.

Lemma occurs_skip c p x y : no_char c x = true -> occurs (String c p) (x ++ y) -> occurs (String c p) y.
Proof.
  intros N (a & b & E). revert x N E. induction a as [|e a IH]; intros x N E.
  - destruct x as [|d x]; [exists "", b; exact E|]. cbn in E. injection E as -> _. cbn in N. rewrite Ascii.eqb_refl in N. discriminate.
  - destruct x as [|d x]; [exists (String e a), b; exact E|]. cbn in E. injection E as _ E. cbn in N. apply andb_prop in N as [_ N]. exact (IH _ N E).
Qed.
Lemma occurs_cons c p y : occurs p y -> occurs p (String c y).
Proof. intros (a & b & ->). exists (String c a), b. reflexivity. Qed.
Lemma occurs_app p x y : occurs p y -> occurs p (x ++ y).
Proof. intros H. induction x as [|c x IH]; [exact H|]. now apply occurs_cons. Qed.
Lemma no_char_app c x y : no_char c (x ++ y) = no_char c x && no_char c y.
Proof. induction x as [|a x IH]; [reflexivity|]. cbn. rewrite IH. apply andb_assoc. Qed.
Lemma lowerhex_i n : (n < 16)%N -> Ascii.eqb (lowerhex n) "i" = false.
Proof.
  intros L. assert (C : forallb (fun n => negb (Ascii.eqb (lowerhex n) "i")) [0;1;2;3;4;5;6;7;8;9;10;11;12;13;14;15]%N = true) by reflexivity.
  rewrite forallb_forall in C. apply negb_true_iff, C. cbn. lia.
Qed.
Lemma hexes_i k : forall n, no_char "i" (hexes k n) = true.
Proof.
  induction k as [|k IH]; intros n; [reflexivity|]. cbn [hexes]. rewrite no_char_app, IH. cbn [no_char andb]. rewrite lowerhex_i; [reflexivity|]. apply N.mod_lt. lia.
Qed.
Lemma encode_high c r : valid_rune r = true -> (byte_of c < 128)%N -> r <> byte_of c -> no_char c (encode_rune r) = true.
Proof.
  intros V C Ne. assert (H : forall n, (n < 256)%N -> n <> byte_of c -> Ascii.eqb (byte n) c = false).
  { intros n L N. apply Ascii.eqb_neq. intros <-. apply N. symmetry. now apply byte_of_byte. }
  unfold encode_rune. rewrite V. apply valid_rune_spec in V. destruct (r <? 128)%N eqn:E0; [apply N.ltb_lt in E0; cbn [no_char]; rewrite H by lia; reflexivity|]. apply N.ltb_ge in E0.
  assert (M : forall n, (n mod 64 < 64)%N) by (intros n; apply N.mod_lt; lia). assert (M1 := M r). assert (M2 := M (r / 64)%N). assert (M3 := M (r / 4096)%N).
  destruct (r <? 2048)%N eqn:E1; [|destruct (r <? 65536)%N eqn:E2]; rewrite ?N.ltb_lt, ?N.ltb_ge in *; cbn [no_char].
  - assert (r / 64 < 32)%N by (apply N.div_lt_upper_bound; lia). rewrite !H by lia. reflexivity.
  - assert (r / 4096 < 16)%N by (apply N.div_lt_upper_bound; lia). rewrite !H by lia. reflexivity.
  - assert (r / 262144 < 5)%N by (apply N.div_lt_upper_bound; lia). rewrite !H by lia. reflexivity.
Qed.
Lemma escaped_i r : valid_rune r = true -> r <> byte_of "i" -> no_char "i" (escaped_rune is_print r) = true.
Proof.
  intros V Ne. unfold escaped_rune. destruct (N.eqb_spec r 34) as [->|]; [reflexivity|]. destruct (N.eqb_spec r 92) as [->|]; [reflexivity|]. cbn [orb].
  destruct (is_print r); [now apply encode_high|]. repeat match goal with |- context [if ?b then _ else _] => destruct b end; try reflexivity.
  all: cbn [append no_char]; rewrite hexes_i; reflexivity.
Qed.
(** The first character of what is quoted. *)
Lemma body_first n c p s : (byte_of c < 128)%N -> byte_of c <> 92%N -> String.length s <= n -> String.prefix (String c p) (quote_body is_print n s) = true ->
  exists s' n', s = String c s' /\ String.length s' <= n' /\ String.prefix p (quote_body is_print n' s') = true.
Proof.
  intros Hc Nc L P. destruct n as [|n]; [discriminate|]. destruct s as [|a s]; [discriminate|]. cbn [quote_body] in P. assert (V := decode_valid (String a s)). assert (Ne : String a s <> "") by discriminate.
  assert (T := width_take (String a s) Ne). assert (Sd := stake_sdrop (snd (decode_rune (String a s))) (String a s)). assert (Ld := sdrop_length (snd (decode_rune (String a s))) (String a s)). assert (W := decode_width _ Ne).
  destruct (decode_rune (String a s)) as [r w]. cbn [fst snd] in *.
  assert (Bs : forall x, String.prefix (String c p) (String backslash x) = false).
  { intros x. cbn [String.prefix]. destruct (ascii_dec c backslash) as [->|]; [|reflexivity]. now elim Nc. }
  assert (Bs' : forall x y, String.prefix (String c p) (String backslash x ++ y) = false) by (intros; apply Bs).
  destruct ((w =? 1)%nat && (r =? rune_error)%N) eqn:B; [rewrite Bs' in P; discriminate|].
  unfold escaped_rune in P. destruct ((r =? 34)%N || (r =? 92)%N); [rewrite Bs' in P; discriminate|]. destruct (is_print r) eqn:Pr.
  2:{ repeat match type of P with context [if ?b then _ else _] => destruct b; [rewrite Bs' in P; discriminate|] end. rewrite Bs' in P. discriminate. }
  destruct (N.eq_dec r (byte_of c)) as [E|E].
  - subst r. rewrite encode_small in T, P by exact Hc. rewrite byte_byte_of in T, P. cbn [append String.prefix] in P. destruct (ascii_dec c c) as [_|]; [|congruence]. rewrite <- (T eq_refl) in Sd. cbn [append] in Sd.
    exists (sdrop w (String a s)), n. split; [symmetry; exact Sd|]. split; [cbn [String.length] in *; lia|exact P].
  - exfalso. assert (X := encode_high c r V Hc E). destruct (encode_rune r) as [|d x] eqn:D; [now apply encode_rune_nonempty in D|]. cbn [append String.prefix] in P. destruct (ascii_dec c d) as [<-|]; [|discriminate]. cbn in X. rewrite Ascii.eqb_refl in X. discriminate.
Qed.
Lemma occurs_prefix p s : occurs p s -> s <> "" -> String.prefix p s = true \/ occurs p (sdrop 1 s).
Proof.
  intros (a & b & ->) Ne. destruct a as [|c a].
  - left. clear. induction p as [|c p IH]; cbn; [destruct b; reflexivity|]. destruct (ascii_dec c c); [exact IH|congruence].
  - right. exists a, b. reflexivity.
Qed.
Lemma body_ict : forall n s, String.length s <= n -> occurs "ict." (quote_body is_print n s) -> occurs "ict." s.
Proof.
  induction n as [|n IH]; intros s L O; [destruct O as ([|] & b & O); discriminate|]. destruct s as [|a s]; [destruct O as ([|] & b & O); discriminate|].
  assert (F : String.prefix "ict." (quote_body is_print (S n) (String a s)) = true -> occurs "ict." (String a s)).
  { intros P. destruct (body_first _ "i" _ _ ltac:(reflexivity) ltac:(discriminate) L P) as (s1 & n1 & E1 & L1 & P1). destruct (body_first _ "c" _ _ ltac:(reflexivity) ltac:(discriminate) L1 P1) as (s2 & n2 & E2 & L2 & P2).
    destruct (body_first _ "t" _ _ ltac:(reflexivity) ltac:(discriminate) L2 P2) as (s3 & n3 & E3 & L3 & P3). destruct (body_first _ "." _ _ ltac:(reflexivity) ltac:(discriminate) L3 P3) as (s4 & n4 & E4 & L4 & P4).
    exists "", s4. rewrite E1, E2, E3, E4. reflexivity. }
  cbn [quote_body] in O, F. assert (V := decode_valid (String a s)). assert (Ne : String a s <> "") by discriminate.
  assert (Ld := sdrop_length (snd (decode_rune (String a s))) (String a s)). assert (W := decode_width _ Ne). assert (Sd := stake_sdrop (snd (decode_rune (String a s))) (String a s)).
  destruct (decode_rune (String a s)) as [r w]. cbn [fst snd] in *. cbn [String.length] in *.
  assert (G : occurs "ict." (quote_body is_print n (sdrop w (String a s))) -> occurs "ict." (String a s)).
  { intros X. rewrite <- Sd. apply occurs_app, IH; [lia|exact X]. }
  destruct ((w =? 1)%nat && (r =? rune_error)%N) eqn:B.
  - apply G. eapply occurs_skip, O. cbn [append no_char]. rewrite hexes_i. reflexivity.
  - destruct (N.eq_dec r (byte_of "i")) as [E|E]; [|apply G; eapply occurs_skip, O; now apply escaped_i].
    subst r. unfold escaped_rune in O, F. change (byte_of "i") with 105%N in *. cbn [N.eqb Pos.eqb orb] in O, F. destruct (is_print 105); [|apply G; eapply occurs_skip, O; reflexivity].
    change (encode_rune 105) with "i" in *. apply occurs_prefix in O as [O|O]; [auto| |discriminate]. apply G. exact O.
Qed.
Theorem ict_clean s : ~ occurs "ict." s -> clean is_print s.
Proof.
  intros N O. apply N, (body_ict (String.length s)); [lia|]. destruct O as (a & b & E). unfold quote in E.
  assert (O : occurs "ict." (quote_body is_print (String.length s) s ++ String quote_sign "")).
  { destruct a as [|c a]; [discriminate|]. injection E as _ E. exists (a ++ "d"), b. rewrite E, sapp_assoc. reflexivity. }
  clear E. revert O. generalize (quote_body is_print (String.length s) s). intros q (x & y & E). revert x E. induction q as [|c q IH]; intros x E.
  - destruct x as [|d x]; [discriminate|]. destruct x; discriminate.
  - destruct x as [|d x].
    + assert (P : exists y', y = y' ++ String quote_sign "").
      { clear IH. cbn in E. do 3 (destruct q as [|? q]; [vm_compute in E; discriminate E|]). exists q. injection E as _ _ _ _ E. symmetry. exact E. }
      destruct P as (y' & ->). exists "", y'. cbn [append] in E |- *. change (String c q ++ String quote_sign "") with (String c q ++ String quote_sign "") in E.
      assert (I : forall u v, u ++ String quote_sign "" = v ++ String quote_sign "" -> u = v).
      { clear. induction u as [|e u IH]; intros [|f v] H; cbn in H; try reflexivity; try (injection H; intros; destruct u || destruct v; discriminate). injection H as -> H. f_equal. auto. }
      apply I. exact E.
    + injection E as -> E. destruct (IH _ E) as (x' & y' & ->). exists (String d x'), y'. reflexivity.
Qed.
End Clean.

(** ** The program *)

Lemma lookup_in k w : forall l : words, slookup k l = Some w -> In (k, w) l.
Proof.
  induction l as [|[k' w'] l IH]; [discriminate|]. cbn [slookup]. destruct (String.eqb_spec k k') as [->|]; [intros [= ->]; left; reflexivity|]. right. auto.
Qed.
Lemma in_lookup k w : forall l : words, NoDup (map fst l) -> In (k, w) l -> slookup k l = Some w.
Proof.
  induction l as [|[k' w'] l IH]; [intros _ []|]. intros N I. inversion_clear N as [|? ? N1 N2]. cbn [slookup]. destruct I as [[= -> ->]|I].
  - now rewrite String.eqb_refl.
  - destruct (String.eqb_spec k k') as [->|]; [|auto]. elim N1. apply in_map_iff. exists (k', w). auto.
Qed.
Section Program.
Variables (tl : string -> string) (is_print : N -> bool) (gofmt : string -> string + string) (listing : words -> list (string * dword)) (now : string).
Hypothesis Pr : forall r, is_print r = true -> source_rune r = true.
Hypothesis Gf : forall src ws, declared src = Some ws -> exists out, gofmt src = inl out /\ declared out = Some ws.
Hypothesis Ls : forall m, NoDup (map fst (listing m)) /\ forall k w, In (k, w) (listing m) <-> slookup k m = Some w.
Hypothesis Nw : no_char (byte 10) now = true.

Theorem generator_words r m : load tl r = Ok (LMap m) ->
  (forall k w s, slookup k m = Some w -> In s [k; dw_word w; dw_def w; dw_by w] -> ~ occurs "dict." (quote is_print s)) ->
  exists out W, generator tl is_print gofmt listing now r = Ok (Made "" (Some out) 0) /\ words_of out = Some W /\ forall k, W k = slookup k m.
Proof.
  intros L C. destruct (Ls m) as [Nd In_].
  assert (D : declared (generated is_print now (listing m)) = Some (listing m)).
  { apply generated_declares; [exact Pr|exact Nw|exact Nd|]. apply Forall_forall. intros [k w] I. apply In_ in I. assert (X := fun s => C k w s I). cbn [In] in X. repeat split; apply X; cbn; auto. }
  destruct (Gf _ _ D) as (out & G & D'). exists out, (fun k => slookup k (listing m)). unfold generator. rewrite L. cbn [bind]. rewrite G. split; [reflexivity|]. unfold words_of. rewrite D'. split; [reflexivity|].
  intros k. destruct (slookup k m) as [w|] eqn:E.
  - apply in_lookup; [exact Nd|]. now apply In_.
  - destruct (slookup k (listing m)) as [w|] eqn:E'; [|reflexivity]. apply lookup_in, In_ in E'. congruence.
Qed.
Theorem generator_plain r es : success r = true -> entries r = Some es ->
  (forall e s, In e es -> In s [tl (strip (dw_word e)); dw_def e; dw_by e] -> ~ occurs "ict." s) ->
  exists m out W, load tl r = Ok (LMap m) /\ generator tl is_print gofmt listing now r = Ok (Made "" (Some out) 0) /\ words_of out = Some W /\ forall k, W k = slookup k m.
Proof.
  intros Su En C. assert (L : exists m, load tl r = Ok (LMap m)) by (unfold load; rewrite Su, En; cbn; eauto). destruct L as (m & L). exists m.
  destruct (generator_words r m L) as (out & W & H); [|exists out, W; tauto]. intros k w s Lk I. apply (load_entries _ _ _ _ En L) in Lk as (pre & e & post & -> & <- & _ & ->). apply ict_clean. apply (C e); [apply in_or_app; right; left; reflexivity|].
  cbn in I |- *. tauto.
Qed.
End Program.

(** ** Cases *)

Definition ascii_print (r : N) : bool := (32 <=? r)%N && (r <? 127)%N.
Lemma ascii_print_ok r : ascii_print r = true -> source_rune r = true.
Proof.
  intros H. unfold ascii_print in H. apply andb_prop in H as [A B]. apply N.leb_le in A. apply N.ltb_lt in B. unfold source_rune. apply negb_true_iff. apply orb_false_iff. split; [apply orb_false_iff; split|]; apply N.eqb_neq; lia.
Qed.
(** A formatter: it accepts what can be read, and leaves it as it is. *)
Definition same (src : string) : string + string := match declared src with Some _ => inl src | None => inr "syntax error" end.
Lemma same_ok src ws : declared src = Some ws -> exists out, same src = inl out /\ declared out = Some ws.
Proof. intros D. exists src. unfold same. now rewrite D. Qed.
(** A listing: every key once, with the entry that is found. *)
Fixpoint current (m : words) : list (string * dword) :=
  match m with
  | [] => []
  | (k, w) :: m => (k, w) :: filter (fun e => negb (String.eqb (fst e) k)) (current m)
  end.
Lemma current_ok m : NoDup (map fst (current m)) /\ forall k w, In (k, w) (current m) <-> slookup k m = Some w.
Proof.
  induction m as [|[k' w'] m [N H]]; [split; [constructor|intros k w; split; [intros []|discriminate]]|]. cbn [current map fst]. split.
  - constructor.
    + intros I. apply in_map_iff in I as ([k w] & <- & I). apply filter_In in I as [_ I]. cbn in I. rewrite String.eqb_refl in I. discriminate.
    + clear H. induction (current m) as [|[k w] l IH]; [constructor|]. inversion_clear N as [|? ? N1 N2]. cbn [filter fst]. destruct (String.eqb k k'); cbn [negb]; [auto|]. cbn [map]. constructor; [|auto].
      intros I. apply N1. apply in_map_iff in I as (x & E & I). apply filter_In in I as [I _]. apply in_map_iff. eauto.
  - intros k w. cbn [slookup]. destruct (String.eqb_spec k k') as [->|Ne].
    + split; [intros [[= ->]|I]; [reflexivity|apply filter_In in I as [_ I]; cbn in I; rewrite String.eqb_refl in I; discriminate]|intros [= ->]; left; reflexivity].
    + rewrite <- H. split; [intros [[= -> ->]|I]; [congruence|now apply filter_In in I]|]. intros I. right. apply filter_In. split; [exact I|]. cbn. apply negb_true_iff, String.eqb_neq, Ne.
Qed.

Definition entry (def : string) : response := Response true (Some [DWord "do" def "x" 0]) None.
Definition verdict : response := entry "to give a verdict. Also: to judge.".
(** U+00AD, a soft hyphen, is written as an escape that ends in d. *)
Definition hyphen : response := entry (encode_rune 0xAD ++ "ict.").
Lemma verdict_changed : forall gofmt, (forall src ws, declared src = Some ws -> exists out, gofmt src = inl out /\ declared out = Some ws) ->
  exists m out W k, load (fun s => s) verdict = Ok (LMap m) /\ generator (fun s => s) ascii_print gofmt current "12:00" verdict = Ok (Made "" (Some out) 0) /\
    words_of out = Some W /\ W k <> slookup k m.
Proof.
  intros gofmt G. assert (L : load (fun s => s) verdict = Ok (LMap [("do", DWord "do" "to give a verdict. Also: to judge." "x" 0)])) by (vm_compute; reflexivity).
  destruct (G (generated ascii_print "12:00" (current [("do", DWord "do" "to give a verdict. Also: to judge." "x" 0)])) [("do", DWord "do" "to give a ver Also: to judge." "x" 0)]) as (out & E & D); [vm_compute; reflexivity|].
  eexists _, out, _, "do". split; [exact L|]. unfold generator. rewrite L. cbn [bind]. rewrite E. split; [reflexivity|]. unfold words_of. rewrite D. split; [reflexivity|]. vm_compute. discriminate.
Qed.
Lemma hyphen_fails : exists m, load (fun s => s) hyphen = Ok (LMap m) /\ declared (generated ascii_print "12:00" (current m)) = None /\
  generator (fun s => s) ascii_print same current "12:00" hyphen = Ok (Made "syntax error" (Some "") 1).
Proof. eexists. split; [vm_compute; reflexivity|]. split; vm_compute; reflexivity. Qed.
Definition pair : response := Response true (Some [DWord "dó" "old" "x" 1; DWord "toaq" ("the ""language""" ++ String (byte 10) "\ §") "y" (-3); DWord "do" "new" "y" 2]) None.
Lemma pair_case : exists m out W, load (fun s => s) pair = Ok (LMap m) /\ generator (fun s => s) ascii_print same current "12:00" pair = Ok (Made "" (Some out) 0) /\ words_of out = Some W /\
  W "do" = Some (DWord "do" "new" "y" 2) /\ W "toaq" = Some (DWord "toaq" ("the ""language""" ++ String (byte 10) "\ §") "y" (-3)) /\ W "x" = None.
Proof. eexists _, _, _. split; [vm_compute; reflexivity|]. split; [vm_compute; reflexivity|]. split; [unfold words_of; vm_compute declared; reflexivity|]. vm_compute. auto. Qed.
