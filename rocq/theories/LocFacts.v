(** Proofs about peg.Location. *)

From Coq Require Import String NArith List PeanoNat Lia.
From Verif Require Import Utf8 Utf8Facts Loc LocSpec.
Import ListNotations.
Open Scope nat_scope.

Lemma range_fuel_enough f1 f2 off s :
  String.length s <= f1 -> String.length s <= f2 -> range_fuel f1 off s = range_fuel f2 off s.
Proof.
  revert f2 off s. induction f1; intros f2 off s H1 H2.
  - destruct s; [destruct f2; reflexivity|simpl in H1; lia].
  - destruct s as [|a s]; [destruct f2; reflexivity|].
    destruct f2; [simpl in H2; lia|].
    pose proof (decode_width (String a s) ltac:(congruence)) as W.
    cbn [range_fuel]. destruct (decode_rune (String a s)) as [r w]. cbn [fst snd] in W.
    f_equal. apply IHf1; rewrite sdrop_length; cbn [String.length] in *; lia.
Qed.

Definition range_from (off : nat) (s : string) := range_fuel (String.length s) off s.

Lemma range_from_cons off s : s <> ""%string ->
  range_from off s =
  (off, fst (decode_rune s)) :: range_from (off + snd (decode_rune s)) (sdrop (snd (decode_rune s)) s).
Proof.
  intros H. unfold range_from. pose proof (decode_width s H) as W.
  destruct s as [|a s]; [congruence|]. cbn [String.length range_fuel].
  destruct (decode_rune (String a s)) as [r w]. cbn [fst snd] in *. f_equal.
  apply range_fuel_enough; rewrite sdrop_length; cbn [String.length] in *; lia.
Qed.

Lemma range_from_ge s : forall off x, In x (range_from off s) -> off <= fst x.
Proof.
  induction s using runes_ind; intros off x Hx; [destruct Hx|].
  rewrite range_from_cons in Hx by assumption. destruct Hx as [<-|Hx]; [simpl; lia|].
  apply IHs in Hx. lia.
Qed.

Definition since (rs : list N) : nat :=
  fold_left (fun c r => if N.eqb r 10 then 0 else S c) rs 0.

Lemma since_spec rs : column_is rs (S (since rs)).
Proof.
  induction rs as [|r rs IH] using rev_ind.
  - exists [], []. repeat split; auto.
  - unfold since in *. rewrite fold_left_app. cbn [fold_left].
    destruct (N.eqb_spec r 10) as [->|NE].
    + exists (rs ++ [10%N]), []. rewrite app_nil_r. repeat split; eauto.
    + destruct IH as (b & a & E & H1 & H2 & H3). exists b, (a ++ [r]).
      rewrite app_assoc, <- E. repeat split; auto.
      * rewrite in_app_iff. simpl. intuition congruence.
      * rewrite app_length. simpl. lia.
Qed.

Definition loc_of (rs : list N) (off : nat) : loc :=
  Loc off (length rs) (line_of rs) (S (since rs)).

Lemma loc_step_of text rs off :
  loc_step text (loc_of rs off) =
  loc_of (rs ++ [fst (decode_rune (sdrop off text))]) (off + snd (decode_rune (sdrop off text))).
Proof.
  unfold loc_step, loc_of. cbn [l_byte l_rune l_line l_column].
  destruct (decode_rune (sdrop off text)) as [r w]. cbn [fst snd].
  unfold line_of, since. rewrite fold_left_app, count_occ_app, app_length. cbn [fold_left length count_occ].
  destruct (N.eqb_spec r 10) as [->|NE].
  - destruct (N.eq_dec 10 10); [|congruence]. f_equal; lia.
  - destruct (N.eq_dec r 10); [congruence|]. f_equal; lia.
Qed.

Lemma filter_none off b s : b <= off -> filter (fun x => Nat.ltb (fst x) b) (range_from off s) = [].
Proof.
  intros H. pose proof (range_from_ge s off) as G.
  induction (range_from off s) as [|x l IH]; [reflexivity|]. cbn [filter].
  destruct (Nat.ltb_spec (fst x) b) as [L|_].
  - specialize (G x (or_introl eq_refl)). lia.
  - apply IH. intros y Hy. apply G. right. exact Hy.
Qed.

Lemma location_loop_spec n text b : forall rs off l,
  b <= String.length text -> off <= String.length text ->
  location_loop n text b (loc_of rs off) = Some l ->
  l = loc_of (rs ++ map snd (filter (fun x => Nat.ltb (fst x) b) (range_from off (sdrop off text)))) (l_byte l)
  /\ b <= l_byte l <= String.length text.
Proof.
  induction n; intros rs off l Hb Ho; cbn [location_loop]; cbn [loc_of l_byte];
    destruct (Nat.ltb_spec off b) as [L|G].
  - discriminate.
  - intros [= <-]. rewrite filter_none by assumption. cbn [map]. rewrite app_nil_r.
    split; [reflexivity|simpl; lia].
  - change (Loc off (length rs) (line_of rs) (S (since rs))) with (loc_of rs off).
    rewrite loc_step_of. intros H.
    assert (NE : sdrop off text <> ""%string).
    { intros E. apply (f_equal String.length) in E. rewrite sdrop_length in E. simpl in E. lia. }
    pose proof (decode_width _ NE) as W. rewrite sdrop_length in W.
    apply IHn in H; [|assumption|lia]. destruct H as [H1 H2]. split; [|exact H2].
    rewrite range_from_cons by assumption. cbn [filter fst].
    destruct (Nat.ltb_spec off b); [|lia]. cbn [map snd].
    rewrite H1 at 1. rewrite sdrop_sdrop, <- app_assoc. reflexivity.
  - intros [= <-]. rewrite filter_none by assumption. cbn [map]. rewrite app_nil_r.
    split; [reflexivity|simpl; lia].
Qed.

Lemma location_spec n text b l : b <= String.length text ->
  location_in n text b = Some l ->
  l_rune l = length (runes_before text b) /\
  l_line l = line_of (runes_before text b) /\
  column_is (runes_before text b) (l_column l) /\
  b <= l_byte l <= String.length text.
Proof.
  intros Hb H. unfold location_in in H. change loc0 with (loc_of [] 0) in H.
  apply location_loop_spec in H; [|assumption|lia]. destruct H as [E H].
  change (sdrop 0 text) with text in E. simpl app in E.
  rewrite E. cbn [loc_of l_rune l_line l_column l_byte].
  repeat split; try tauto. apply since_spec.
Qed.

Lemma location_enough text b : forall n rs off,
  b <= String.length text -> off <= String.length text -> b <= off + n ->
  exists l, location_loop n text b (loc_of rs off) = Some l.
Proof.
  induction n; intros rs off Hb Ho Hn; cbn [location_loop]; cbn [loc_of l_byte];
    destruct (Nat.ltb_spec off b) as [L|G]; try lia; eauto.
  change (Loc off (length rs) (line_of rs) (S (since rs))) with (loc_of rs off).
  rewrite loc_step_of.
  assert (NE : sdrop off text <> ""%string).
  { intros E. apply (f_equal String.length) in E. rewrite sdrop_length in E. simpl in E. lia. }
  pose proof (decode_width _ NE) as W. rewrite sdrop_length in W.
  apply IHn; lia.
Qed.

Lemma location_loops n text b : forall l,
  String.length text < b -> l_byte l <= String.length text ->
  location_loop n text b l = None.
Proof.
  induction n; intros l Hb Hl; cbn [location_loop];
    destruct (Nat.ltb_spec (l_byte l) b); try lia; auto.
  apply IHn; [assumption|].
  assert (W : snd (decode_rune (sdrop (l_byte l) text)) <= String.length text - l_byte l).
  { destruct (sdrop (l_byte l) text) eqn:E; [simpl; lia|].
    rewrite <- E, <- sdrop_length. apply decode_width. congruence. }
  unfold loc_step. destruct (decode_rune (sdrop (l_byte l) text)) as [r w]. cbn [snd] in W.
  destruct (N.eqb r 10); cbn [l_byte]; lia.
Qed.

Lemma location_terminates text b :
  (exists n l, location_in n text b = Some l) <-> b <= String.length text.
Proof.
  split.
  - intros (n & l & H). destruct (Nat.le_gt_cases b (String.length text)) as [|G]; [assumption|].
    unfold location_in in H. rewrite location_loops in H; [discriminate|assumption|simpl; lia].
  - intros H. exists b. apply (location_enough text b b [] 0); lia.
Qed.

Lemma location_total text b : b <= String.length text -> exists l, location text b = Some l.
Proof. intros H. apply (location_enough text b b [] 0); lia. Qed.
