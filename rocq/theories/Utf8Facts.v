(** Facts about the UTF-8 model. *)

From Coq Require Import String Ascii ZArith NArith List Bool Lia Arith.
From Coq Require Import ZifyClasses ZifyN Zify.
From Verif Require Import Utf8.
Import ListNotations.
Open Scope N_scope.

Ltac Zify.zify_post_hook ::= Z.to_euclidean_division_equations.

Lemma byte_of_lt (a : ascii) : byte_of a < 256.
Proof. destruct a as [[] [] [] [] [] [] [] []]; reflexivity. Qed.

Lemma byte_of_byte (n : N) : n < 256 -> byte_of (byte n) = n.
Proof. intros; apply N_ascii_embedding; assumption. Qed.

Lemma byte_byte_of (a : ascii) : byte (byte_of a) = a.
Proof. apply ascii_N_embedding. Qed.

Lemma in_range_spec lo hi b : in_range lo hi b = true <-> lo <= b <= hi.
Proof.
  unfold in_range. rewrite andb_true_iff, !N.leb_le. tauto.
Qed.

Lemma in_range_false lo hi b : in_range lo hi b = false <-> (b < lo \/ hi < b).
Proof.
  unfold in_range. rewrite andb_false_iff, !N.leb_gt. tauto.
Qed.

Lemma sapp_nil_r (s : string) : (s ++ "")%string = s.
Proof. induction s; simpl; congruence. Qed.

Lemma sapp_assoc (a b c : string) : ((a ++ b) ++ c)%string = (a ++ (b ++ c))%string.
Proof. induction a; simpl; congruence. Qed.

Lemma slength_app (a b : string) :
  String.length (a ++ b) = (String.length a + String.length b)%nat.
Proof. induction a; simpl; congruence. Qed.

Lemma sdrop_app (a b : string) : sdrop (String.length a) (a ++ b) = b.
Proof. induction a; simpl; auto. Qed.

Lemma stake_app (a b : string) : stake (String.length a) (a ++ b) = a.
Proof. induction a; simpl; [destruct b; reflexivity|congruence]. Qed.

Lemma stake_sdrop n s : (stake n s ++ sdrop n s)%string = s.
Proof. revert s; induction n; intros [|a s]; simpl; auto. congruence. Qed.

Lemma sdrop_length n s : String.length (sdrop n s) = (String.length s - n)%nat.
Proof. revert s; induction n; intros [|a s]; simpl; auto. Qed.

Lemma stake_length n s : (n <= String.length s)%nat -> String.length (stake n s) = n.
Proof.
  revert s; induction n; intros [|a s]; simpl; intros; auto; try lia.
  rewrite IHn; lia.
Qed.

Lemma sdrop_sdrop n m s : sdrop n (sdrop m s) = sdrop (m + n) s.
Proof. revert s; induction m; intros [|a s]; simpl; auto. destruct n; auto. Qed.

Lemma sdrop_ge n s : (String.length s <= n)%nat -> sdrop n s = ""%string.
Proof. revert s; induction n; intros [|a s]; simpl; intros; auto; try lia. apply IHn; lia. Qed.

Lemma sdrop_app_le n a b : (n <= String.length a)%nat ->
  sdrop n (a ++ b) = (sdrop n a ++ b)%string.
Proof.
  revert a; induction n; intros [|c a]; simpl; intros; auto; try lia. apply IHn; lia.
Qed.

(** The width reported by decoding. *)
Lemma decode_width s : s <> ""%string ->
  (1 <= snd (decode_rune s) <= String.length s)%nat.
Proof.
  destruct s as [|a0 s]; [congruence|intros _].
  unfold decode_rune.
  destruct (byte_of a0 <? 128); [simpl; lia|].
  destruct (in_range 194 223 (byte_of a0)).
  { destruct s; simpl; [lia|]. destruct (is_cont _); simpl; lia. }
  destruct (in_range 224 239 (byte_of a0)).
  { destruct s as [|? [|]]; simpl; try lia. destruct (_ && _); simpl; lia. }
  destruct (in_range 240 244 (byte_of a0)).
  { destruct s as [|? [|? [|]]]; simpl; try lia. destruct (_ && _ && _); simpl; lia. }
  simpl; lia.
Qed.

Lemma decode_width0 s : snd (decode_rune s) = 0%nat <-> s = ""%string.
Proof.
  split; intros H.
  - destruct s as [|a s]; auto.
    pose proof (decode_width (String a s)). destruct H0; [congruence|lia].
  - subst; reflexivity.
Qed.

(** Fuel independence of [runes_fuel]. *)
Lemma runes_fuel_enough f1 f2 s :
  (String.length s <= f1)%nat -> (String.length s <= f2)%nat ->
  runes_fuel f1 s = runes_fuel f2 s.
Proof.
  revert f2 s; induction f1; intros f2 s H1 H2.
  { destruct s; simpl in *; [|lia]. destruct f2; reflexivity. }
  destruct s as [|a s]; [destruct f2; reflexivity|].
  destruct f2; [simpl in H2; lia|].
  cbn [runes_fuel].
  pose proof (decode_width (String a s)) as W.
  destruct (decode_rune (String a s)) as [r w] eqn:E.
  specialize (W ltac:(congruence)); cbn [snd String.length] in W.
  destruct w as [|w]; [lia|]. f_equal.
  apply IHf1; rewrite sdrop_length; cbn [String.length] in *; lia.
Qed.

Lemma runes_nil : runes "" = [].
Proof. reflexivity. Qed.

Lemma runes_cons s : s <> ""%string ->
  runes s = fst (decode_rune s) :: runes (sdrop (snd (decode_rune s)) s).
Proof.
  intros Hs. destruct s as [|a s]; [congruence|].
  unfold runes at 1. cbn [String.length runes_fuel].
  pose proof (decode_width (String a s) Hs) as W.
  destruct (decode_rune (String a s)) as [r w] eqn:E. cbn [fst snd] in *.
  f_equal. apply runes_fuel_enough; rewrite sdrop_length; cbn [String.length] in *; lia.
Qed.

Lemma index_any_fuel_enough f1 f2 s cs :
  (String.length s <= f1)%nat -> (String.length s <= f2)%nat ->
  index_any_fuel f1 s cs = index_any_fuel f2 s cs.
Proof.
  revert f2 s; induction f1; intros f2 s H1 H2.
  { destruct s; simpl in *; [|lia]. destruct f2; reflexivity. }
  destruct s as [|a s]; [destruct f2; reflexivity|].
  destruct f2; [simpl in H2; lia|].
  cbn [index_any_fuel].
  pose proof (decode_width (String a s)) as W.
  destruct (decode_rune (String a s)) as [r w] eqn:E.
  specialize (W ltac:(congruence)); cbn [snd String.length] in W.
  destruct (mem_rune r cs); auto.
  rewrite (IHf1 f2); auto; rewrite sdrop_length; cbn [String.length] in *; lia.
Qed.

Lemma index_any_nil cs : index_any "" cs = None.
Proof. reflexivity. Qed.

Lemma index_any_cons s cs : s <> ""%string ->
  index_any s cs =
  (if mem_rune (fst (decode_rune s)) cs then Some 0%nat
   else match index_any (sdrop (snd (decode_rune s)) s) cs with
        | Some i => Some (snd (decode_rune s) + i)%nat
        | None => None
        end).
Proof.
  intros Hs. destruct s as [|a s]; [congruence|].
  unfold index_any at 1. cbn [String.length index_any_fuel].
  pose proof (decode_width (String a s) Hs) as W.
  destruct (decode_rune (String a s)) as [r w] eqn:E. cbn [fst snd] in *.
  destruct (mem_rune r cs); auto.
  unfold index_any.
  rewrite (index_any_fuel_enough (String.length s) (String.length (sdrop w (String a s)))); auto;
    rewrite sdrop_length; cbn [String.length] in *; lia.
Qed.

(** Strong induction along the runes of a string. *)
Lemma runes_ind (P : string -> Prop) :
  P ""%string ->
  (forall s, s <> ""%string -> P (sdrop (snd (decode_rune s)) s) -> P s) ->
  forall s, P s.
Proof.
  intros H0 HS s.
  remember (String.length s) as n eqn:E. assert (String.length s <= n)%nat by lia. clear E.
  revert s H; induction n; intros s H.
  { destruct s; simpl in *; [assumption|lia]. }
  destruct s as [|a s]; [assumption|].
  apply HS; [congruence|]. apply IHn.
  pose proof (decode_width (String a s)) as W. specialize (W ltac:(congruence)).
  rewrite sdrop_length. cbn [String.length] in *. lia.
Qed.

Lemma mem_rune_In r l : mem_rune r l = true <-> In r l.
Proof.
  induction l; simpl; [split; [congruence|tauto]|].
  rewrite orb_true_iff, IHl, N.eqb_eq. intuition.
Qed.

Lemma mem_rune_false r l : mem_rune r l = false <-> ~ In r l.
Proof. rewrite <- mem_rune_In. destruct (mem_rune r l); intuition congruence. Qed.

(** Encoding. *)
Lemma valid_rune_spec r : valid_rune r = true <-> (r < 0xD800 \/ 0xE000 <= r <= 0x10FFFF).
Proof. unfold valid_rune. rewrite orb_true_iff, N.ltb_lt, in_range_spec. tauto. Qed.

Lemma if_true {A} (b : bool) (x y : A) : b = true -> (if b then x else y) = x.
Proof. intros ->; reflexivity. Qed.
Lemma if_false {A} (b : bool) (x y : A) : b = false -> (if b then x else y) = y.
Proof. intros ->; reflexivity. Qed.

Lemma decode_encode_app r s : valid_rune r = true ->
  decode_rune (encode_rune r ++ s) = (r, String.length (encode_rune r)).
Proof.
  intros V. unfold encode_rune. rewrite V.
  apply valid_rune_spec in V.
  destruct (r <? 128) eqn:E1.
  { apply N.ltb_lt in E1. cbn [append String.length decode_rune].
    rewrite byte_of_byte by lia. rewrite if_true by (apply N.ltb_lt; lia). reflexivity. }
  apply N.ltb_ge in E1.
  destruct (r <? 2048) eqn:E2.
  { apply N.ltb_lt in E2. cbn [append String.length decode_rune].
    rewrite !byte_of_byte by lia.
    rewrite if_false by (apply N.ltb_ge; lia).
    rewrite if_true by (apply in_range_spec; lia).
    rewrite if_true by (apply in_range_spec; lia).
    f_equal. lia. }
  apply N.ltb_ge in E2.
  destruct (r <? 65536) eqn:E3.
  { apply N.ltb_lt in E3. cbn [append String.length decode_rune].
    rewrite !byte_of_byte by lia.
    rewrite if_false by (apply N.ltb_ge; lia).
    rewrite if_false by (apply in_range_false; lia).
    rewrite if_true by (apply in_range_spec; lia).
    rewrite if_true.
    { f_equal. lia. }
    apply andb_true_iff; split; [|apply in_range_spec; lia].
    unfold second_ok, is_cont.
    destruct (N.eqb_spec (224 + r / 4096) 224); [apply in_range_spec; lia|].
    destruct (N.eqb_spec (224 + r / 4096) 237); [apply in_range_spec; lia|].
    rewrite if_false by (apply N.eqb_neq; lia).
    rewrite if_false by (apply N.eqb_neq; lia).
    apply in_range_spec; lia. }
  apply N.ltb_ge in E3.
  cbn [append String.length decode_rune].
  rewrite !byte_of_byte by lia.
  rewrite if_false by (apply N.ltb_ge; lia).
  rewrite if_false by (apply in_range_false; lia).
  rewrite if_false by (apply in_range_false; lia).
  rewrite if_true by (apply in_range_spec; lia).
  rewrite if_true.
  { f_equal. lia. }
  rewrite !andb_true_iff; split; [split|]; try (apply in_range_spec; lia).
  unfold second_ok, is_cont.
  rewrite if_false by (apply N.eqb_neq; lia).
  rewrite if_false by (apply N.eqb_neq; lia).
  destruct (N.eqb_spec (240 + r / 262144) 240); [apply in_range_spec; lia|].
  destruct (N.eqb_spec (240 + r / 262144) 244); [apply in_range_spec; lia|].
  apply in_range_spec; lia.
Qed.

Lemma encode_rune_nonempty r : encode_rune r <> ""%string.
Proof.
  unfold encode_rune. set (r' := if valid_rune r then r else rune_error). clearbody r'.
  cbv zeta.
  destruct (r' <? 128); [congruence|]. destruct (r' <? 2048); [congruence|].
  destruct (r' <? 65536); congruence.
Qed.

Lemma encode_rune_invalid r : valid_rune r = false -> encode_rune r = encode_rune rune_error.
Proof. intros H. unfold encode_rune. rewrite H. reflexivity. Qed.

(** [clean r] is what is read back after writing [r]. *)
Definition clean (r : N) : N := if valid_rune r then r else rune_error.

Lemma decode_encode_app' r s :
  decode_rune (encode_rune r ++ s) = (clean r, String.length (encode_rune r)).
Proof.
  unfold clean. destruct (valid_rune r) eqn:V.
  - apply decode_encode_app; assumption.
  - rewrite encode_rune_invalid by assumption. apply decode_encode_app. reflexivity.
Qed.

Lemma app_nonempty_l a b : a <> ""%string -> (a ++ b)%string <> ""%string.
Proof. destruct a; simpl; congruence. Qed.

Lemma runes_encode_app r s :
  runes (encode_rune r ++ s) = clean r :: runes s.
Proof.
  rewrite runes_cons by (apply app_nonempty_l, encode_rune_nonempty).
  rewrite decode_encode_app'. cbn [fst snd]. rewrite sdrop_app. reflexivity.
Qed.

Lemma runes_of_runes_app rs s : runes (of_runes rs ++ s) = map clean rs ++ runes s.
Proof.
  induction rs; simpl; auto.
  rewrite sapp_assoc, runes_encode_app, IHrs. reflexivity.
Qed.

Lemma runes_of_runes rs : runes (of_runes rs) = map clean rs.
Proof.
  rewrite <- (sapp_nil_r (of_runes rs)), runes_of_runes_app, runes_nil, app_nil_r.
  reflexivity.
Qed.

Lemma clean_valid r : valid_rune r = true -> clean r = r.
Proof. unfold clean; intros ->; reflexivity. Qed.

Lemma decode_valid s : valid_rune (fst (decode_rune s)) = true.
Proof.
  destruct s as [|a0 s]; [reflexivity|].
  pose proof (byte_of_lt a0) as B0.
  cbn [decode_rune].
  destruct (byte_of a0 <? 128) eqn:E.
  { apply N.ltb_lt in E. apply valid_rune_spec. simpl. lia. }
  apply N.ltb_ge in E.
  destruct (in_range 194 223 (byte_of a0)) eqn:E1.
  { apply in_range_spec in E1. destruct s; [reflexivity|].
    destruct (is_cont (byte_of a)) eqn:E2; [|reflexivity].
    apply in_range_spec in E2. apply valid_rune_spec. simpl. lia. }
  destruct (in_range 224 239 (byte_of a0)) eqn:E2.
  { apply in_range_spec in E2. destruct s as [|a1 [|a2 s]]; try reflexivity.
    destruct (second_ok (byte_of a0) (byte_of a1) && is_cont (byte_of a2)) eqn:E3;
      [|reflexivity].
    apply andb_true_iff in E3 as [E3 E4]. apply in_range_spec in E4.
    pose proof (byte_of_lt a1) as B1.
    apply valid_rune_spec. cbn [fst].
    unfold second_ok in E3.
    destruct (N.eqb_spec (byte_of a0) 224); [apply in_range_spec in E3; lia|].
    destruct (N.eqb_spec (byte_of a0) 237); [apply in_range_spec in E3; lia|].
    rewrite if_false in E3 by (apply N.eqb_neq; lia).
    rewrite if_false in E3 by (apply N.eqb_neq; lia).
    apply in_range_spec in E3. lia. }
  destruct (in_range 240 244 (byte_of a0)) eqn:E3; [|reflexivity].
  apply in_range_spec in E3. destruct s as [|a1 [|a2 [|a3 s]]]; try reflexivity.
  destruct (second_ok (byte_of a0) (byte_of a1) && is_cont (byte_of a2)
            && is_cont (byte_of a3)) eqn:E4; [|reflexivity].
  rewrite !andb_true_iff in E4. destruct E4 as [[E4 E5] E6].
  apply in_range_spec in E5, E6.
  pose proof (byte_of_lt a1) as B1.
  apply valid_rune_spec. cbn [fst].
  unfold second_ok in E4.
  rewrite if_false in E4 by (apply N.eqb_neq; lia).
  rewrite if_false in E4 by (apply N.eqb_neq; lia).
  destruct (N.eqb_spec (byte_of a0) 240); [apply in_range_spec in E4; lia|].
  destruct (N.eqb_spec (byte_of a0) 244); [apply in_range_spec in E4; lia|].
  apply in_range_spec in E4. lia.
Qed.

Lemma runes_valid s : Forall (fun r => valid_rune r = true) (runes s).
Proof.
  induction s using runes_ind; [constructor|].
  rewrite runes_cons by assumption. constructor; [apply decode_valid|assumption].
Qed.

Lemma map_clean_runes s : map clean (runes s) = runes s.
Proof.
  pose proof (runes_valid s) as H. induction H; simpl; auto.
  rewrite clean_valid by assumption. congruence.
Qed.

(** A string that does not start in the middle of a rune. *)
Definition rune_start (s : string) : Prop :=
  match s with
  | EmptyString => True
  | String a _ => is_cont (byte_of a) = false
  end.

Lemma rune_start_encode r s : rune_start (encode_rune r ++ s).
Proof.
  unfold encode_rune. set (r' := if valid_rune r then r else rune_error).
  assert (V : valid_rune r' = true).
  { unfold r'. destruct (valid_rune r) eqn:E; auto. }
  clearbody r'. cbv zeta. apply valid_rune_spec in V.
  destruct (r' <? 128) eqn:E1; [|destruct (r' <? 2048) eqn:E2; [|destruct (r' <? 65536) eqn:E3]];
    rewrite ?N.ltb_lt, ?N.ltb_ge in *;
    cbn [append rune_start]; rewrite byte_of_byte by lia; apply in_range_false; lia.
Qed.

Lemma second_ok_cont b0 b1 : second_ok b0 b1 = true -> is_cont b1 = true.
Proof.
  unfold second_ok, is_cont. rewrite !in_range_spec.
  destruct (b0 =? 224); [rewrite in_range_spec; lia|].
  destruct (b0 =? 237); [rewrite in_range_spec; lia|].
  destruct (b0 =? 240); [rewrite in_range_spec; lia|].
  destruct (b0 =? 244); [rewrite in_range_spec; lia|].
  rewrite in_range_spec; lia.
Qed.

(** Replacing what follows a non-empty prefix, both continuations starting a new
    rune, does not change how the prefix is decoded. *)
Lemma decode_app_start p x y :
  p <> ""%string -> rune_start x -> rune_start y ->
  decode_rune (p ++ x) = decode_rune (p ++ y) /\
  (snd (decode_rune (p ++ x)) <= String.length p)%nat.
Proof.
  intros Hp Hx Hy.
  assert (C1 : forall b0 b1, is_cont b1 = false -> second_ok b0 b1 = false).
  { intros b0 b1 H. destruct (second_ok b0 b1) eqn:E; auto.
    apply second_ok_cont in E. congruence. }
  destruct p as [|a0 p]; [congruence|]. cbn [append decode_rune String.length].
  destruct (byte_of a0 <? 128); [simpl; split; [reflexivity|lia]|].
  destruct (in_range 194 223 (byte_of a0)).
  { destruct p as [|a1 p]; cbn [append String.length].
    - destruct x, y; simpl in *; rewrite ?Hx, ?Hy; simpl; split; auto; lia.
    - destruct (is_cont _); simpl; split; auto; lia. }
  destruct (in_range 224 239 (byte_of a0)).
  { destruct p as [|a1 [|a2 p]]; cbn [append String.length].
    - destruct x as [|x0 [|x1 x]], y as [|y0 [|y1 y]]; simpl in *;
        rewrite ?C1 by assumption; simpl; split; auto; lia.
    - destruct x as [|x0 x], y as [|y0 y]; simpl in *;
        rewrite ?Hx, ?Hy, ?andb_false_r; simpl; split; auto; lia.
    - destruct (_ && _); simpl; split; auto; lia. }
  destruct (in_range 240 244 (byte_of a0)).
  { destruct p as [|a1 [|a2 [|a3 p]]]; cbn [append String.length].
    - destruct x as [|x0 [|x1 [|x2 x]]], y as [|y0 [|y1 [|y2 y]]]; simpl in *;
        rewrite ?C1 by assumption; simpl; split; auto; lia.
    - destruct x as [|x0 [|x1 x]], y as [|y0 [|y1 y]]; simpl in *;
        rewrite ?Hx, ?Hy, ?andb_false_r; simpl; split; auto; lia.
    - destruct x as [|x0 x], y as [|y0 y]; simpl in *;
        rewrite ?Hx, ?Hy, ?andb_false_r; simpl; split; auto; lia.
    - destruct (_ && _ && _); simpl; split; auto; lia. }
  simpl; split; auto; lia.
Qed.

Lemma runes_app_start p x :
  rune_start x -> runes (p ++ x) = runes p ++ runes x.
Proof.
  revert x. induction p using runes_ind; intros x Hx; [reflexivity|].
  destruct (decode_app_start p x "" H Hx I) as [E W].
  rewrite sapp_nil_r in E.
  rewrite runes_cons by (apply app_nonempty_l; assumption).
  rewrite (runes_cons p) by assumption.
  rewrite <- E. simpl. f_equal.
  rewrite sdrop_app_le by assumption.
  rewrite E. apply IHp; assumption.
Qed.

Lemma rune_start_app p x : rune_start x -> rune_start p -> rune_start (p ++ x).
Proof. destruct p; simpl; auto. Qed.

Lemma decode_not_error_start s :
  fst (decode_rune s) <> rune_error -> rune_start s.
Proof.
  destruct s as [|a0 s]; simpl; auto.
  intros H.
  destruct (is_cont (byte_of a0)) eqn:E; auto.
  apply in_range_spec in E. exfalso. apply H.
  rewrite if_false by (apply N.ltb_ge; lia).
  rewrite if_false by (apply in_range_false; lia).
  rewrite if_false by (apply in_range_false; lia).
  rewrite if_false by (apply in_range_false; lia).
  reflexivity.
Qed.

(** [index_any] finds the first rune of the set. *)
Lemma index_any_some s cs i :
  index_any s cs = Some i -> ~ In rune_error cs ->
  exists p q,
    s = (p ++ q)%string /\ String.length p = i /\ q <> ""%string /\
    rune_start q /\ mem_rune (fst (decode_rune q)) cs = true /\
    Forall (fun x => mem_rune x cs = false) (runes p).
Proof.
  intros Hi Hcs. revert i Hi. induction s using runes_ind; intros i H0; [discriminate|].
  rewrite index_any_cons in H0 by assumption.
  destruct (mem_rune (fst (decode_rune s)) cs) eqn:M.
  { injection H0 as <-. exists ""%string, s.
    repeat split; auto; [|constructor].
    apply decode_not_error_start. intros E. rewrite E in M.
    apply mem_rune_In in M. contradiction. }
  destruct (index_any (sdrop (snd (decode_rune s)) s) cs) as [j|] eqn:E; [|discriminate].
  injection H0 as <-.
  destruct (IHs j eq_refl) as (p & q & E1 & E2 & E3 & E4 & E5 & E6).
  pose proof (decode_width s H) as W.
  exists (stake (snd (decode_rune s)) s ++ p)%string, q.
  assert (Ed : s = ((stake (snd (decode_rune s)) s ++ p) ++ q)%string).
  { rewrite sapp_assoc, <- E1. rewrite stake_sdrop. reflexivity. }
  split; [assumption|].
  split; [rewrite slength_app, stake_length by lia; lia|].
  split; [assumption|]. split; [assumption|]. split; [assumption|].
  assert (G : runes (stake (snd (decode_rune s)) s ++ p) ++ runes q
              = (fst (decode_rune s) :: runes p) ++ runes q).
  { rewrite <- runes_app_start by assumption. rewrite <- Ed.
    rewrite runes_cons by assumption. rewrite E1.
    rewrite runes_app_start by assumption. reflexivity. }
  apply app_inv_tail in G. rewrite G. constructor; assumption.
Qed.

Lemma index_any_none s cs :
  index_any s cs = None -> Forall (fun x => mem_rune x cs = false) (runes s).
Proof.
  induction s using runes_ind; intros H0; [constructor|].
  rewrite index_any_cons in H0 by assumption.
  rewrite runes_cons by assumption.
  destruct (mem_rune (fst (decode_rune s)) cs) eqn:M; [discriminate|].
  destruct (index_any _ cs) eqn:E in H0; [discriminate|].
  constructor; auto.
Qed.

Lemma index_any_app p q cs :
  Forall (fun x => mem_rune x cs = false) (runes p) ->
  rune_start q -> q <> ""%string -> mem_rune (fst (decode_rune q)) cs = true ->
  index_any (p ++ q) cs = Some (String.length p).
Proof.
  intros Hp Sq Hq Mq. revert Hp.
  induction p using runes_ind; intros Hp.
  { simpl. rewrite index_any_cons by assumption. rewrite Mq. reflexivity. }
  rewrite runes_cons in Hp by assumption. inversion Hp; subst.
  destruct (decode_app_start p q "" H Sq I) as [E W]. rewrite sapp_nil_r in E.
  rewrite index_any_cons by (apply app_nonempty_l; assumption).
  rewrite E, H2. rewrite E in W. rewrite sdrop_app_le by assumption.
  rewrite IHp by assumption. rewrite sdrop_length. f_equal. lia.
Qed.

(** Decoding and re-encoding a valid rune gives back its bytes. *)
Lemma decode_inv s :
  s <> ""%string -> fst (decode_rune s) <> rune_error ->
  s = (encode_rune (fst (decode_rune s)) ++ sdrop (snd (decode_rune s)) s)%string.
Proof.
  destruct s as [|a0 s]; [congruence|]. intros _ H.
  pose proof (byte_of_lt a0) as B0.
  assert (V := decode_valid (String a0 s)).
  unfold encode_rune. rewrite V. clear V.
  revert H. cbn [decode_rune].
  destruct (byte_of a0 <? 128) eqn:E.
  { intros _. cbn [fst snd sdrop]. rewrite E. simpl. rewrite byte_byte_of. reflexivity. }
  apply N.ltb_ge in E.
  destruct (in_range 194 223 (byte_of a0)) eqn:E1.
  { apply in_range_spec in E1. destruct s as [|a1 s]; [intros []; reflexivity|].
    destruct (is_cont (byte_of a1)) eqn:E2; [|intros []; reflexivity].
    apply in_range_spec in E2. intros _. cbn [fst snd sdrop append].
    rewrite if_false by (apply N.ltb_ge; lia).
    rewrite if_true by (apply N.ltb_lt; lia).
    cbn [append].
    rewrite <- (byte_byte_of a0) at 1. rewrite <- (byte_byte_of a1) at 1.
    do 2 (apply (f_equal2 String); [f_equal; lia|]). reflexivity. }
  destruct (in_range 224 239 (byte_of a0)) eqn:E2.
  { apply in_range_spec in E2. destruct s as [|a1 [|a2 s]]; try (intros []; reflexivity).
    destruct (second_ok (byte_of a0) (byte_of a1) && is_cont (byte_of a2)) eqn:E3;
      [|intros []; reflexivity].
    apply andb_true_iff in E3 as [E3 E4]. apply in_range_spec in E4.
    pose proof (second_ok_cont _ _ E3) as E5. apply in_range_spec in E5.
    assert (byte_of a0 = 224 -> 160 <= byte_of a1).
    { intros E6. rewrite E6 in E3. apply in_range_spec in E3. lia. }
    intros _. cbn [fst snd sdrop append].
    rewrite if_false by (apply N.ltb_ge; lia).
    rewrite if_false by (apply N.ltb_ge; lia).
    rewrite if_true by (apply N.ltb_lt; lia).
    cbn [append].
    rewrite <- (byte_byte_of a0) at 1. rewrite <- (byte_byte_of a1) at 1.
    rewrite <- (byte_byte_of a2) at 1.
    do 3 (apply (f_equal2 String); [f_equal; lia|]). reflexivity. }
  destruct (in_range 240 244 (byte_of a0)) eqn:E3; [|intros []; reflexivity].
  apply in_range_spec in E3. destruct s as [|a1 [|a2 [|a3 s]]]; try (intros []; reflexivity).
  destruct (second_ok (byte_of a0) (byte_of a1) && is_cont (byte_of a2)
            && is_cont (byte_of a3)) eqn:E4; [|intros []; reflexivity].
  rewrite !andb_true_iff in E4. destruct E4 as [[E4 E5] E6].
  apply in_range_spec in E5, E6.
  pose proof (second_ok_cont _ _ E4) as E7. apply in_range_spec in E7.
  assert (byte_of a0 = 240 -> 144 <= byte_of a1).
  { intros E8. rewrite E8 in E4. apply in_range_spec in E4. lia. }
  intros _. cbn [fst snd sdrop append].
  rewrite if_false by (apply N.ltb_ge; lia).
  rewrite if_false by (apply N.ltb_ge; lia).
  rewrite if_false by (apply N.ltb_ge; lia).
  cbn [append].
  rewrite <- (byte_byte_of a0) at 1. rewrite <- (byte_byte_of a1) at 1.
  rewrite <- (byte_byte_of a2) at 1. rewrite <- (byte_byte_of a3) at 1.
  do 4 (apply (f_equal2 String); [f_equal; lia|]). reflexivity.
Qed.
