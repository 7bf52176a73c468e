(** DedupFails and LeafFails. *)

From Coq Require Import String NArith ZArith List Bool Arith Lia FMapPositive.
From Verif Require Import Base Utf8 PegSyntax Grammar Peg PegToaq PegSpec PegFacts PegToaqFacts Parser FailFacts ParserFacts Dedup DedupSpec.
Import ListNotations.
Open Scope list_scope.
Open Scope nat_scope.

Notation ids := (map address).

(** ** First occurrences *)

Lemma firsts_ext : forall l a b, (forall i, In i a <-> In i b) -> firsts a l = firsts b l.
Proof.
  induction l as [|n l IH]; intros a b E; cbn [firsts]; [reflexivity|].
  destruct (in_dec N.eq_dec (address n) a) as [I|I], (in_dec N.eq_dec (address n) b) as [J|J]; try (apply E in I; contradiction); try (apply E in J; contradiction).
  - apply IH, E.
  - f_equal. apply IH. intros i. cbn. rewrite E. tauto.
Qed.
Lemma firsts_app : forall a b s, firsts s (a ++ b) = firsts s a ++ firsts (ids a ++ s) b.
Proof.
  induction a as [|n a IH]; intros b s; cbn [firsts app map]; [reflexivity|]. destruct (in_dec N.eq_dec (address n) s) as [I|I].
  - rewrite IH. f_equal. apply firsts_ext. intros i. cbn. rewrite in_app_iff. split; [tauto|]. intros [<-|[J|J]]; tauto.
  - cbn [app]. f_equal. rewrite IH. f_equal. apply firsts_ext. intros i. cbn. rewrite !in_app_iff. cbn. tauto.
Qed.
Lemma firsts_none : forall l s, (forall n, In n l -> In (address n) s) -> firsts s l = [].
Proof.
  induction l as [|n l IH]; intros s H; cbn [firsts]; [reflexivity|]. destruct (in_dec N.eq_dec (address n) s) as [I|I].
  - apply IH. intros m J. apply H. right. exact J.
  - destruct I. apply H. left. reflexivity.
Qed.
Lemma firsts_incl : forall l s n, In n (firsts s l) -> In n l /\ ~ In (address n) s.
Proof.
  induction l as [|m l IH]; intros s n H; cbn [firsts] in H; [destruct H|]. destruct (in_dec N.eq_dec (address m) s) as [I|I].
  - apply IH in H. split; [right|]; apply H.
  - destruct H as [<-|H]; [split; [left; reflexivity|exact I]|]. apply IH in H. split; [right; apply H|]. intros J. apply H. right. exact J.
Qed.
Lemma firsts_NoDup : forall l s, NoDup (ids (firsts s l)).
Proof.
  induction l as [|m l IH]; intros s; cbn [firsts]; [constructor|]. destruct (in_dec N.eq_dec (address m) s) as [I|I]; [apply IH|]. cbn [map]. constructor; [|apply IH].
  intros J. apply in_map_iff in J. destruct J as (n & E & J). apply firsts_incl in J. apply J. left. congruence.
Qed.
Lemma firsts_id : forall l s, NoDup (ids l) -> (forall n, In n l -> ~ In (address n) s) -> firsts s l = l.
Proof.
  induction l as [|m l IH]; intros s N D; cbn [firsts]; [reflexivity|]. inversion N; subst. destruct (in_dec N.eq_dec (address m) s) as [I|I]; [destruct (D m (or_introl eq_refl) I)|].
  f_equal. apply IH; [assumption|]. intros n J [E|K]; [apply H1; rewrite E; apply in_map, J|exact (D n (or_intror J) K)].
Qed.
Lemma firsts_cover : forall l s n, In n l -> ~ In (address n) s -> exists m, In m (firsts s l) /\ address m = address n.
Proof.
  induction l as [|m l IH]; intros s n H D; [destruct H|]. cbn [firsts]. destruct (in_dec N.eq_dec (address m) s) as [I|I].
  - destruct H as [<-|H]; [contradiction|]. apply IH; assumption.
  - destruct (N.eq_dec (address n) (address m)) as [E|E]; [exists m; split; [left; reflexivity|auto]|]. destruct H as [->|H]; [congruence|].
    destruct (IH (address m :: s) n H) as (k & K & A); [intros [J|J]; [congruence|contradiction]|]. exists k. split; [right; exact K|exact A].
Qed.

(** ** Subtrees *)

Lemma pre_sub n : forall m, In m (preorder n) <-> subn m n.
Proof.
  induction n as [i nm p w kids IH] using fnode_ind2. rewrite Forall_forall in IH. intros m. cbn [preorder]. split.
  - intros [<-|H]; [constructor|]. apply in_flat_map in H. destruct H as (k & K & H). econstructor; [exact K|]. apply IH; assumption.
  - intros S. inversion S; subst; [left; reflexivity|]. right. apply in_flat_map. exists k. split; [assumption|]. apply IH; assumption.
Qed.
Lemma sub_trans a b c : subn a b -> subn b c -> subn a c.
Proof. intros X Y. induction Y; [exact X|econstructor; eauto]. Qed.
Lemma sub_size m n : subn m n -> fsize m <= fsize n.
Proof. intros S. induction S; [lia|]. cbn [fsize]. pose proof (fsize_kid _ _ H). lia. Qed.

Lemma ids_pos i j : N.succ_pos i = N.succ_pos j -> i = j.
Proof. intros E. apply (f_equal Npos) in E. rewrite !N.succ_pos_spec in E. lia. Qed.
Lemma find_add {A} i j (x : A) m : PositiveMap.find (N.succ_pos j) (PositiveMap.add (N.succ_pos i) x m) = if N.eq_dec j i then Some x else PositiveMap.find (N.succ_pos j) m.
Proof.
  destruct (N.eq_dec j i) as [->|D]; [apply PositiveMap.gss|]. apply PositiveMap.gso. intros E. apply D, ids_pos, E.
Qed.

Section Tree.
Variable h : FailFacts.heap.

(** Seen nodes that are not above have been walked. *)
Definition whole (K : nat) (D : list N) : Prop :=
  forall i m, In i D -> h i = Some m -> fsize m <= K -> forall n, subn n m -> In (address n) D.
Lemma whole_le K K' D : K' <= K -> whole K D -> whole K' D.
Proof. intros L H i m I E S. eapply H; [exact I|exact E|lia]. Qed.
Lemma address_id n : address n = f_idof n.
Proof. destruct n; reflexivity. Qed.
Lemma whole_seen K D n : consistent h n -> whole K D -> fsize n <= K -> In (address n) D -> forall m, In m (preorder n) -> In (address m) D.
Proof.
  intros C W S I m J. apply pre_sub in J. eapply W; [exact I| |exact S|exact J]. rewrite address_id. apply C. constructor.
Qed.
Lemma whole_add K D n : consistent h n -> whole K D -> whole K (ids (preorder n) ++ D).
Proof.
  intros C W i m I E S x X. apply in_app_iff in I. apply in_app_iff. destruct I as [I|I]; [left|right; eapply W; eassumption].
  apply in_map_iff in I. destruct I as (y & <- & Y). apply pre_sub in Y. rewrite address_id, (C y Y) in E. injection E as <-.
  apply in_map, pre_sub. eapply sub_trans; eassumption.
Qed.
Lemma consistent_kid i nm p w kids k : consistent h (FNode i nm p w kids) -> In k kids -> consistent h k.
Proof. intros C I n S. apply C. econstructor; eassumption. Qed.

Definition dom (s : plan) (D : list N) : Prop := forall i, PositiveMap.find (N.succ_pos i) s <> None <-> In i D.

Definition walks_d := (fix walks (l : list fnode) (s : plan) : list bool * plan :=
   match l with [] => ([], s) | k :: l' => let (b, s1) := dedup_walk k s in let (bs, s2) := walks l' s1 in (b :: bs, s2) end).
Definition pick (s : plan) := (fix pick (l : list fnode) (bs : list bool) : list fnode :=
   match l, bs with k :: l', b :: bs' => if b then after s k :: pick l' bs' else pick l' bs' | _, _ => [] end).

(** The addresses of a list of trees. *)
Notation allids kids := (ids (flat_map preorder kids)).

Lemma walk_ok n : consistent h n -> forall s D K b s', fsize n <= K -> dom s D -> whole K D -> dedup_walk n s = (b, s') ->
  dom s' (ids (preorder n) ++ D) /\ (forall i, In i D -> PositiveMap.find (N.succ_pos i) s' = PositiveMap.find (N.succ_pos i) s) /\
  (b = false -> In (address n) D) /\ (b = true -> ~ In (address n) D /\
    forall s2, (forall i, In i (ids (preorder n)) -> ~ In i D -> PositiveMap.find (N.succ_pos i) s2 = PositiveMap.find (N.succ_pos i) s') ->
      preorder (after s2 n) = map (after s2) (firsts D (preorder n))).
Proof.
  induction n as [i nm p w kids IH] using fnode_ind2. rewrite Forall_forall in IH. intros C s D K b s' L Hd W E. cbn [dedup_walk] in E.
  destruct (PositiveMap.find (N.succ_pos i) s) as [bs0|] eqn:F.
  - injection E as <- <-. assert (I : In i D) by (apply Hd; congruence). split; [|split; [auto|split; [intros _; exact I|discriminate]]].
    intros j. rewrite (Hd j), in_app_iff. split; [auto|]. intros [J|J]; [|exact J]. apply in_map_iff in J. destruct J as (m & <- & J).
    eapply whole_seen; [exact C|exact W|exact L|exact I|exact J].
  - assert (NI : ~ In i D) by (intros I; apply Hd in I; congruence).
    set (s0 := PositiveMap.add (N.succ_pos i) [] s) in *. change (let (ks, s3) := walks_d kids s0 in (true, PositiveMap.add (N.succ_pos i) ks s3)) with
      (let (ks, s3) := walks_d kids s0 in (true, PositiveMap.add (N.succ_pos i) ks s3)) in E.
    assert (E' : (let (ks, s3) := walks_d kids s0 in (true, PositiveMap.add (N.succ_pos i) ks s3)) = (b, s')) by exact E. clear E.
    assert (Kids : forall l s D bs s', incl l kids -> dom s D -> whole (fsize (FNode i nm p w kids) - 1) D -> walks_d l s = (bs, s') ->
      dom s' (allids l ++ D) /\ (forall j, In j D -> PositiveMap.find (N.succ_pos j) s' = PositiveMap.find (N.succ_pos j) s) /\
      forall s2, (forall j, In j (allids l) -> ~ In j D -> PositiveMap.find (N.succ_pos j) s2 = PositiveMap.find (N.succ_pos j) s') ->
        flat_map preorder (pick s2 l bs) = map (after s2) (firsts D (flat_map preorder l))).
    { clear s D K b s' L Hd W F NI s0 E'. induction l as [|k l IHl]; intros s D bs s' In' Hd W E; cbn [walks_d] in E.
      - injection E as <- <-. split; [exact Hd|]. split; [auto|]. reflexivity.
      - destruct (dedup_walk k s) as [b s1] eqn:E1. destruct (walks_d l s1) as [bs1 s3] eqn:E2. injection E as <- <-.
        assert (Ik : In k kids) by (apply In'; left; reflexivity). assert (Ck := consistent_kid _ _ _ _ _ _ C Ik).
        assert (Sk : fsize k <= fsize (FNode i nm p w kids) - 1) by (cbn [fsize]; pose proof (fsize_kid _ _ Ik); lia).
        destruct (IH k Ik Ck s D _ b s1 Sk Hd W E1) as (D1 & P1 & B0 & B1).
        destruct (IHl s1 (ids (preorder k) ++ D) bs1 s3 ltac:(intros x X; apply In'; right; exact X) D1 (whole_add _ _ _ Ck W) E2) as (D2 & P2 & Q2).
        split; [|split].
        + intros j. rewrite (D2 j). cbn [flat_map]. rewrite map_app, !in_app_iff. tauto.
        + intros j J. rewrite (P2 j) by (apply in_app_iff; right; exact J). apply P1, J.
        + intros s2 H. cbn [flat_map pick]. rewrite firsts_app, map_app.
          assert (R : flat_map preorder (pick s2 l bs1) = map (after s2) (firsts (ids (preorder k) ++ D) (flat_map preorder l))).
          { apply Q2. intros j J N. apply H; [cbn [flat_map]; rewrite map_app; apply in_app_iff; right; exact J|]. intros X. apply N, in_app_iff. right. exact X. }
          destruct b.
          * cbn [flat_map]. f_equal; [|exact R]. destruct (B1 eq_refl) as [_ B]. apply B. intros j J N.
            rewrite H; [|cbn [flat_map]; rewrite map_app; apply in_app_iff; left; exact J|exact N]. apply P2, in_app_iff. left. exact J.
          * rewrite (firsts_none (preorder k) D); [exact R|]. intros m M. eapply whole_seen; [exact Ck|exact W|exact Sk|apply B0; reflexivity|exact M]. }
    destruct (walks_d kids s0) as [bs s3] eqn:E3. injection E' as <- <-.
    assert (D0 : dom s0 (i :: D)).
    { intros j. unfold s0. rewrite find_add. destruct (N.eq_dec j i) as [->|Nj]; [split; [left; reflexivity|discriminate]|]. rewrite (Hd j). cbn. split; [auto|]. intros [X|X]; [congruence|exact X]. }
    assert (W0 : whole (fsize (FNode i nm p w kids) - 1) (i :: D)).
    { intros j m [<-|J] Hm Sm x X.
      - exfalso. assert (Hi : h i = Some (FNode i nm p w kids)) by (apply (C _ (SubHere _))). rewrite Hi in Hm. injection Hm as <-. cbn [fsize] in Sm. lia.
      - right. eapply W; [exact J|exact Hm|lia|exact X]. }
    destruct (Kids kids s0 (i :: D) bs s3 (incl_refl _) D0 W0 E3) as (D3 & P3 & Q3).
    split; [|split; [|split; [discriminate|]]].
    + intros j. rewrite find_add. cbn [preorder map address app]. destruct (N.eq_dec j i) as [->|Nj]; [split; [left; reflexivity|discriminate]|].
      rewrite (D3 j), !in_app_iff. cbn. rewrite in_app_iff. tauto.
    + intros j J. rewrite find_add. destruct (N.eq_dec j i) as [->|Nj]; [contradiction|]. rewrite P3 by (right; exact J). unfold s0. rewrite find_add. destruct (N.eq_dec j i); [contradiction|reflexivity].
    + intros _. split; [exact NI|]. intros s2 H. cbn [preorder firsts address].
      destruct (in_dec N.eq_dec i D); [contradiction|]. cbn [map].
      assert (Hi : PositiveMap.find (N.succ_pos i) s2 = Some bs).
      { rewrite H; [rewrite find_add; destruct (N.eq_dec i i); congruence|left; reflexivity|exact NI]. }
      assert (Ea : after s2 (FNode i nm p w kids) = FNode i nm p w (pick s2 kids bs)) by (cbn [after]; rewrite Hi; reflexivity).
      rewrite Ea. cbn [preorder]. f_equal. apply Q3. intros j J N. rewrite H; [|right; exact J|intros X; apply N; right; exact X].
      rewrite find_add. destruct (N.eq_dec j i) as [->|]; [destruct N; left; reflexivity|reflexivity].
Qed.

Lemma dedup_nodes n : consistent h n -> preorder (dedup n) = map (after (dedup_plan n)) (firsts [] (preorder n)).
Proof.
  intros C. unfold dedup, dedup_plan. destruct (dedup_walk n (PositiveMap.empty _)) as [b s'] eqn:E. cbn [snd].
  destruct (walk_ok n C (PositiveMap.empty _) [] (fsize n) b s' (le_n _)) as (_ & _ & B0 & B1); [| |exact E|].
  - intros i. rewrite PositiveMap.gempty. split; [congruence|intros []].
  - intros i m [].
  - destruct b; [|destruct (B0 eq_refl)]. apply (proj2 (B1 eq_refl)). reflexivity.
Qed.

Lemma after_label s n : label (after s n) = label n.
Proof. destruct n; reflexivity. Qed.
Lemma label_address n : address n = fst (fst (fst (label n))).
Proof. destruct n; reflexivity. Qed.

Theorem dedup_spec n : consistent h n ->
  map label (preorder (dedup n)) = map label (firsts [] (preorder n)) /\ NoDup (map address (preorder (dedup n))).
Proof.
  intros C. assert (E : map label (preorder (dedup n)) = map label (firsts [] (preorder n))).
  { rewrite (dedup_nodes n C), map_map. apply map_ext. intros m. apply after_label. }
  split; [exact E|]. assert (A : forall l, ids l = map (fun x => fst (fst (fst x))) (map label l)).
  { intros l. rewrite map_map. apply map_ext, label_address. }
  rewrite A, E, <- A. apply firsts_NoDup.
Qed.

(** ** LeafFails *)

Definition keep (a : Z * list fnode) (n : fnode) : Z * list fnode :=
  if (fst a <? Z.of_nat (f_pos n))%Z then (Z.of_nat (f_pos n), [n])
  else if (Z.of_nat (f_pos n) =? fst a)%Z then (fst a, snd a ++ [n]) else a.
Definition walks_l := (fix walks (l : list fnode) (s : leafst) : leafst := match l with [] => s | k :: l' => walks l' (leaf_walk k s) end).
Definition ldom (s : leafst) (D : list N) : Prop := forall i, PositiveMap.find (N.succ_pos i) (lf_seen s) <> None <-> In i D.
Definition lval (s : leafst) : Z * list fnode := (lf_pos s, lf_fails s).

Lemma leaf_ok n : consistent h n -> forall s D K, fsize n <= K -> ldom s D -> whole K D ->
  ldom (leaf_walk n s) (ids (preorder n) ++ D) /\ lval (leaf_walk n s) = fold_left keep (filter is_leaf (firsts D (preorder n))) (lval s).
Proof.
  induction n as [i nm p w kids IH] using fnode_ind2. rewrite Forall_forall in IH. intros C s D K L Hd W. cbn [leaf_walk].
  destruct (PositiveMap.find (N.succ_pos i) (lf_seen s)) as [u|] eqn:F.
  - assert (I : In i D) by (apply Hd; congruence). assert (A := whole_seen _ _ _ C W L I). split.
    + intros j. rewrite (Hd j), in_app_iff. split; [auto|]. intros [J|J]; [|exact J]. apply in_map_iff in J. destruct J as (m & <- & J). apply A, J.
    + rewrite firsts_none by exact A. reflexivity.
  - assert (NI : ~ In i D) by (intros I; apply Hd in I; congruence).
    set (s0 := Leafst (PositiveMap.add (N.succ_pos i) tt (lf_seen s)) (lf_pos s) (lf_fails s)).
    assert (D0 : forall s1, lf_seen s1 = lf_seen s0 -> ldom s1 (i :: D)).
    { intros s1 Es j. rewrite Es. unfold s0. cbn [lf_seen]. rewrite find_add. destruct (N.eq_dec j i) as [->|Nj]; [split; [left; reflexivity|discriminate]|]. rewrite (Hd j). cbn. split; [auto|]. intros [X|X]; [congruence|exact X]. }
    cbn [preorder map address firsts]. destruct (in_dec N.eq_dec i D); [contradiction|]. cbn [filter].
    destruct kids as [|k kids].
    + cbn [is_leaf f_kids flat_map firsts filter fold_left app]. unfold keep, lval. cbn [fst snd lf_pos lf_fails f_pos].
      change (lf_pos s0) with (lf_pos s). destruct (lf_pos s <? Z.of_nat p)%Z; [|destruct (Z.of_nat p =? lf_pos s)%Z]; (split; [apply D0; reflexivity|reflexivity]).
    + set (ks := k :: kids) in *. change (is_leaf (FNode i nm p w ks)) with false. cbn [fold_left].
      assert (Kids : forall l s D, incl l ks -> ldom s D -> whole (fsize (FNode i nm p w ks) - 1) D ->
        ldom (walks_l l s) (allids l ++ D) /\ lval (walks_l l s) = fold_left keep (filter is_leaf (firsts D (flat_map preorder l))) (lval s)).
      { clear s D K L Hd W F NI s0 D0 n. induction l as [|x l IHl]; intros s D In' Hd W; cbn [walks_l].
        - split; [exact Hd|reflexivity].
        - assert (Ix : In x ks) by (apply In'; left; reflexivity). assert (Cx := consistent_kid _ _ _ _ _ _ C Ix).
          assert (Sx : fsize x <= fsize (FNode i nm p w ks) - 1) by (cbn [fsize]; pose proof (fsize_kid _ _ Ix); lia).
          destruct (IH x Ix Cx s D _ Sx Hd W) as (D1 & V1).
          destruct (IHl (leaf_walk x s) (ids (preorder x) ++ D) ltac:(intros y Y; apply In'; right; exact Y) D1 (whole_add _ _ _ Cx W)) as (D2 & V2).
          split.
          + intros j. rewrite (D2 j). cbn [flat_map]. rewrite map_app, !in_app_iff. tauto.
          + rewrite V2, V1. cbn [flat_map]. rewrite firsts_app, filter_app, fold_left_app. reflexivity. }
      assert (W0 : whole (fsize (FNode i nm p w ks) - 1) (i :: D)).
      { intros j m [<-|J] Hm Sm x X.
        - exfalso. assert (Hi : h i = Some (FNode i nm p w ks)) by (apply (C _ (SubHere _))). rewrite Hi in Hm. injection Hm as <-. cbn [fsize] in Sm. lia.
        - right. eapply W; [exact J|exact Hm|lia|exact X]. }
      destruct (Kids ks s0 (i :: D) (incl_refl _) (D0 s0 eq_refl) W0) as (D3 & V3). split; [|exact V3].
      intros j. change (PositiveMap.find (N.succ_pos j) (lf_seen (walks_l ks s0)) <> None <-> In j ((i :: allids ks) ++ D)). rewrite (D3 j). cbn [app In]. rewrite !in_app_iff. cbn [In]. tauto.
Qed.

(** The last maximum. *)
Lemma keep_spec : forall l o fs, (forall n, In n fs -> Z.of_nat (f_pos n) = o) ->
  let '(o', fs') := fold_left keep l (o, fs) in
  (o <= o')%Z /\ (forall n, In n l -> (Z.of_nat (f_pos n) <= o')%Z) /\ (o' = o \/ exists n, In n l /\ Z.of_nat (f_pos n) = o') /\
  fs' = filter (fun n => (Z.of_nat (f_pos n) =? o')%Z) (fs ++ l).
Proof.
  induction l as [|n l IH]; intros o fs H; cbn [fold_left].
  - split; [lia|]. split; [intros n []|]. split; [left; reflexivity|]. rewrite app_nil_r. clear - H. induction fs as [|a fs IH]; cbn; [reflexivity|].
    rewrite (proj2 (Z.eqb_eq _ _)) by (apply H; left; reflexivity). f_equal. apply IH. intros; apply H; right; assumption.
  - unfold keep at 2. cbn [fst snd]. destruct (o <? Z.of_nat (f_pos n))%Z eqn:E1; [|destruct (Z.of_nat (f_pos n) =? o)%Z eqn:E2].
    + apply Z.ltb_lt in E1. specialize (IH (Z.of_nat (f_pos n)) [n] ltac:(intros m [<-|[]]; reflexivity)). destruct (fold_left keep l _) as [o' fs'].
      destruct IH as (A & B & C & D). split; [lia|]. split; [intros m [<-|M]; [lia|apply B, M]|]. split.
      { right. destruct C as [->|(m & M & <-)]; [exists n; split; [left; reflexivity|reflexivity]|exists m; split; [right; exact M|reflexivity]]. }
      rewrite D. rewrite (filter_app _ fs). replace (filter _ fs) with (@nil fnode); [reflexivity|]. clear - H E1 A. induction fs as [|a fs IH]; cbn; [reflexivity|].
      rewrite (proj2 (Z.eqb_neq _ _)) by (rewrite (H a (or_introl eq_refl)); lia). apply IH. intros; apply H; right; assumption.
    + apply Z.eqb_eq in E2. specialize (IH o (fs ++ [n])). destruct (fold_left keep l _) as [o' fs']. destruct IH as (A & B & C & D).
      { intros m M. apply in_app_iff in M. destruct M as [M|[<-|[]]]; [apply H, M|exact E2]. }
      split; [lia|]. split; [intros m [<-|M]; [lia|apply B, M]|]. split; [destruct C as [C|(m & M & C)]; [left; exact C|right; exists m; split; [right; exact M|exact C]]|].
      rewrite D, <- app_assoc. reflexivity.
    + apply Z.ltb_ge in E1. apply Z.eqb_neq in E2. specialize (IH o fs H). destruct (fold_left keep l _) as [o' fs']. destruct IH as (A & B & C & D).
      split; [lia|]. split; [intros m [<-|M]; [lia|apply B, M]|]. split; [destruct C as [C|(m & M & C)]; [left; exact C|right; exists m; split; [right; exact M|exact C]]|].
      rewrite D, !filter_app. f_equal. cbn [filter]. rewrite (proj2 (Z.eqb_neq (Z.of_nat (f_pos n)) o')) by lia. reflexivity.
Qed.

Lemma filter_filter {A} (f g : A -> bool) l : filter f (filter g l) = filter (fun x => g x && f x) l.
Proof. induction l as [|a l IH]; cbn; [reflexivity|]. destruct (g a); cbn; [destruct (f a); rewrite IH; reflexivity|exact IH]. Qed.

Theorem leaf_spec n : consistent h n -> leaf_fails n = leaves_at (byte_offset n) n.
Proof.
  intros C. destruct (leaf_fails_ok h n C) as [Ne P]. unfold leaf_fails, leaves_at in *. set (s0 := Leafst (PositiveMap.empty unit) (-1) []) in *.
  destruct (leaf_ok n C s0 [] (fsize n) (le_n _)) as (_ & V).
  { intros i. cbn. rewrite PositiveMap.gempty. split; [congruence|intros []]. }
  { intros i m []. }
  assert (K := keep_spec (filter is_leaf (firsts [] (preorder n))) (-1) [] ltac:(intros m [])).
  unfold lval in V. cbn [lf_pos lf_fails s0] in V. rewrite <- V in K. destruct K as (_ & _ & _ & K). cbn [app] in K. rewrite filter_filter in K.
  destruct (lf_fails (leaf_walk n s0)) as [|l ls] eqn:El; [congruence|].
  assert (Q : lf_pos (leaf_walk n s0) = byte_offset n).
  { assert (I : In l (l :: ls)) by (left; reflexivity). rewrite <- (proj2 (P l I)). rewrite K in I. apply filter_In in I. destruct I as [_ I].
    apply andb_true_iff in I. destruct I as [_ I]. apply Z.eqb_eq in I. congruence. }
  rewrite Q in K. rewrite K. reflexivity.
Qed.
End Tree.

(** ** Positions never fall on the way down *)

Definition rises (f : fnode) : Prop := forall n, subn n f -> forall k, In k (f_kids n) -> f_pos n <= f_pos k.
Definition drise (st : fst_) : Prop := forall r pos f, m2_get (s_fail st) r pos = Some f -> rises f /\ f_pos f = pos.
(** A list of kids that an expression at [pos] adds. *)
Definition krise (pos : nat) (ks : list fnode) : Prop := forall k, In k ks -> rises k /\ pos <= f_pos k.

Lemma rises_leaf i nm p w : rises (FNode i nm p w []).
Proof. intros n S k K. inversion S; subst; [destruct K|contradiction]. Qed.
Lemma rises_new i nm p w ks : krise p ks -> rises (FNode i nm p w ks).
Proof. intros H n S k K. inversion S; subst; [apply H, K|]. destruct (H _ H2) as [R _]. eapply R; eassumption. Qed.
Lemma krise_nil p : krise p []. Proof. intros k []. Qed.
Lemma krise_app p q a b : p <= q -> krise p a -> krise q b -> krise p (a ++ b).
Proof. intros L A B k K. apply in_app_iff in K. destruct K as [K|K]; [apply A, K|]. destruct (B k K). split; [assumption|lia]. Qed.
Lemma drise_bump st n : drise st -> drise (Fst (s_fail st) n).
Proof. intros H. exact H. Qed.

Section Rise.
Variable G : positive -> rule.
Variable is_punct : N -> bool.
Variable text : string.
Variable nullable : positive -> bool.
Variable rank : positive -> nat.
Variable maxrank : nat.
Hypothesis wf : forall r, wf_rule G nullable rank maxrank r = true.
Variable ds : mst.
Hypothesis Hds : PegFacts.cons G is_punct text ds.
Variable errPos : Z.

Definition up (pos : nat) (o : option nat) : Prop := match o with Some q => pos <= q | None => True end.
Definition call_rise (call : positive -> nat -> fst_ -> option (option nat * fnode * fst_)) : Prop :=
  forall r pos st o f st', drise st -> call r pos st = Some (o, f, st') ->
    drise st' /\ up pos o /\ rises f /\ (f_want f <> ""%string \/ f_kids f <> [] -> f_pos f = pos).

Lemma fail_at_rise pos p want st o ks st' : drise st -> pos <= p -> fail_at errPos p want st = Some (o, ks, st') -> drise st' /\ up pos o /\ krise pos ks.
Proof.
  intros H L. unfold fail_at, want_at. destruct (errPos <=? Z.of_nat p)%Z; intros E; injection E as <- <- <-; (split; [exact H|split; [exact I|]]); [|apply krise_nil].
  intros k [<-|[]]. split; [apply rises_leaf|exact L].
Qed.

Notation floop call e1 :=
  (fix loop (n : nat) (pos : nat) (ks : list fnode) (st : fst_) {struct n} : fres :=
     match n with
     | O => None
     | S n' =>
         match fai G is_punct text call errPos e1 pos st with
         | Some (Some pos1, k1, st1) => loop n' pos1 (ks ++ k1) st1
         | Some (None, k1, st1) => Some (Some pos, ks ++ k1, st1)
         | None => None
         end
     end).

Lemma fai_rise call : call_rise call -> forall e pos st o ks st', drise st -> fai G is_punct text call errPos e pos st = Some (o, ks, st') ->
  drise st' /\ up pos o /\ krise pos ks.
Proof.
  intros Hc. induction e; intros pos st o ks st' Hst E; cbn [fai] in E.
  - destruct (has_lit text s pos); [|eapply fail_at_rise; eauto]. injection E as <- <- <-. split; [exact Hst|]. split; [cbn; lia|apply krise_nil].
  - destruct (next text pos) as [r w]. destruct (mem_rune r rs); [|eapply fail_at_rise; eauto]. injection E as <- <- <-. split; [exact Hst|]. split; [cbn; lia|apply krise_nil].
  - destruct (any_ok text pos); [|eapply fail_at_rise; eauto]. injection E as <- <- <-. split; [exact Hst|]. split; [cbn; lia|apply krise_nil].
  - destruct (any_ok text pos); [|eapply fail_at_rise; eauto]. destruct (next text pos) as [r w]. destruct (is_punct r); [|eapply fail_at_rise; [exact Hst| |exact E]; lia].
    injection E as <- <- <-. split; [exact Hst|]. split; [cbn; lia|apply krise_nil].
  - destruct (call r pos st) as [[[p kid] st1]|] eqn:Ec; [|discriminate]. injection E as <- <- <-.
    destruct (Hc _ _ _ _ _ _ Hst Ec) as (A & B & C & D). split; [exact A|]. split; [exact B|].
    destruct (negb (String.eqb (f_want kid) "") || negb match f_kids kid with [] => true | _ => false end)%bool eqn:K; [|apply krise_nil].
    intros k [<-|[]]. split; [exact C|]. rewrite D; [lia|]. apply orb_true_iff in K. destruct K as [K|K]; apply negb_true_iff in K.
    + left. apply String.eqb_neq, K.
    + right. destruct (f_kids kid); [discriminate|congruence].
  - destruct (fai G is_punct text call errPos e1 pos st) as [[[[p1|] k1] st1]|] eqn:E1; [| |discriminate].
    + destruct (IHe1 _ _ _ _ _ Hst E1) as (A & B & C). cbn in B.
      destruct (fai G is_punct text call errPos e2 p1 st1) as [[[p2 k2] st2]|] eqn:E2; [|discriminate]. injection E as <- <- <-.
      destruct (IHe2 _ _ _ _ _ A E2) as (A2 & B2 & C2). split; [exact A2|]. split; [destruct p2; cbn in *; lia|eapply krise_app; [exact B|exact C|exact C2]].
    + injection E as <- <- <-. eapply IHe1; eassumption.
  - destruct (fai G is_punct text call errPos e1 pos st) as [[[[p1|] k1] st1]|] eqn:E1; [| |discriminate].
    + injection E as <- <- <-. eapply IHe1; eassumption.
    + destruct (IHe1 _ _ _ _ _ Hst E1) as (A & B & C).
      destruct (fai G is_punct text call errPos e2 pos st1) as [[[p2 k2] st2]|] eqn:E2; [|discriminate]. injection E as <- <- <-.
      destruct (IHe2 _ _ _ _ _ A E2) as (A2 & B2 & C2). split; [exact A2|]. split; [exact B2|eapply krise_app; [|exact C|exact C2]; lia].
  - destruct (fai G is_punct text call errPos e pos st) as [[[[p1|] k1] st1]|] eqn:E1; [| |discriminate].
    + destruct (IHe _ _ _ _ _ Hst E1) as (A & B & C). cbn in B. clear E1.
      assert (HL : forall n p1 k1 st1, drise st1 -> pos <= p1 -> krise pos k1 -> floop call e n p1 k1 st1 = Some (o, ks, st') -> drise st' /\ up pos o /\ krise pos ks).
      { clear p1 k1 st1 A B C E. induction n as [|n IHn]; intros p1 k1 st1 A B C E; [discriminate|].
        destruct (fai G is_punct text call errPos e p1 st1) as [[[[p2|] k2] st2]|] eqn:E2; [| |discriminate].
        * destruct (IHe _ _ _ _ _ A E2) as (A2 & B2 & C2). cbn in B2. eapply IHn; [exact A2| |eapply krise_app; [exact B|exact C|exact C2]|exact E]. lia.
        * injection E as <- <- <-. destruct (IHe _ _ _ _ _ A E2) as (A2 & B2 & C2). split; [exact A2|]. split; [exact B|eapply krise_app; [exact B|exact C|exact C2]]. }
      apply (HL (S (String.length text)) p1 k1 st1 A B C E).
    + injection E as <- <- <-. eapply IHe; eassumption.
  - destruct (fai G is_punct text call errPos e pos st) as [[[[p1|] k1] st1]|] eqn:E1; [| |discriminate]; injection E as <- <- <-;
      destruct (IHe _ _ _ _ _ Hst E1) as (A & B & C); (split; [exact A|split; [cbn in *; lia|exact C]]).
  - destruct (fai G is_punct text call errPos e pos st) as [[[[p1|] k1] st1]|] eqn:E1; [| |discriminate]; destruct (IHe _ _ _ _ _ Hst E1) as (A & B & C).
    + injection E as <- <- <-. split; [exact A|]. split; [cbn; lia|apply krise_nil].
    + eapply fail_at_rise; [exact A| |exact E]; lia.
  - destruct (fai G is_punct text call errPos e pos st) as [[[[p1|] k1] st1]|] eqn:E1; [| |discriminate]; destruct (IHe _ _ _ _ _ Hst E1) as (A & B & C).
    + eapply fail_at_rise; [exact A| |exact E]; lia.
    + injection E as <- <- <-. split; [exact A|]. split; [cbn; lia|apply krise_nil].
  - eapply IHe; eassumption.
  - eapply IHe; eassumption.
  - eapply IHe; eassumption.
Qed.

Lemma failMemo_rise r pos st o f st' : drise st -> failMemo ds r pos errPos st = Some (o, f, st') ->
  drise st' /\ up pos o /\ rises f /\ (f_want f <> ""%string \/ f_kids f <> [] -> f_pos f = pos).
Proof.
  intros Hst. unfold failMemo. cbn [fst snd].
  assert (Em : forall o, up pos o -> drise (Fst (s_fail st) (N.succ (s_next st))) /\ up pos o /\ rises (FNode (s_next st) "" 0 "" []) /\
     (f_want (FNode (s_next st) "" 0 "" []) <> ""%string \/ f_kids (FNode (s_next st) "" 0 "" []) <> [] -> f_pos (FNode (s_next st) "" 0 "" []) = pos)).
  { intros o' U. split; [exact Hst|]. split; [exact U|]. split; [apply rises_leaf|]. cbn. intros [H|H]; congruence. }
  assert (M : forall dp de, delta ds r pos = (dp, de) -> (0 < dp)%Z -> up pos (Some (Z.to_nat (Z.of_nat pos + (dp - 1))))).
  { intros dp de D P. apply (memo_end G is_punct text nullable rank maxrank wf ds Hds r pos dp de) in D; [|exact P]. cbn in *. lia. }
  destruct (s_lastFail ds <? Z.of_nat pos)%Z.
  { intro H. injection H as <- <- <-. apply Em. exact I. }
  destruct (delta ds r pos) as [dp de] eqn:Ed. destruct (Z.of_nat pos + (de - 1) <? errPos)%Z.
  - destruct (0 <? dp)%Z eqn:Hdp; intro H; injection H as <- <- <-; apply Em; [|exact I]. apply Z.ltb_lt in Hdp. eapply M; [reflexivity|exact Hdp].
  - destruct (m2_get (s_fail st) r pos) as [f0|] eqn:Ef; [|discriminate]. destruct (Hst _ _ _ Ef) as [C0 P0].
    destruct (dp <? 0)%Z; [|destruct (0 <? dp)%Z eqn:Hdp; [|discriminate]]; intro H; injection H as <- <- <-; (split; [exact Hst|split; [|split; [exact C0|intros _; exact P0]]]).
    + exact I.
    + apply Z.ltb_lt in Hdp. eapply M; [reflexivity|exact Hdp].
Qed.

Lemma fail_rise fuel : call_rise (fail_of G is_punct text ds errPos fuel).
Proof.
  induction fuel as [|fuel IH]; intros r pos st o f st' Hst E; [discriminate|]. cbn [fail_of] in E.
  destruct (failMemo ds r pos errPos st) as [[[o0 f0] st0]|] eqn:Em.
  { injection E as <- <- <-. eapply failMemo_rise; eassumption. }
  destruct (fai G is_punct text (fail_of G is_punct text ds errPos fuel) errPos (r_body (G r)) pos (Fst (s_fail st) (N.succ (s_next st)))) as [[[p ks] st1]|] eqn:Ef; [|discriminate].
  destruct (fai_rise _ IH _ _ (Fst (s_fail st) (N.succ (s_next st))) _ _ _ Hst Ef) as (A & B & C). injection E as <- <- <-.
  set (f := match r_err (G r), p with Some _, Some _ => FNode (s_next st) (r_name (G r)) pos "" [] | Some w, None => FNode (s_next st) (r_name (G r)) pos w []
    | None, _ => FNode (s_next st) (r_name (G r)) pos "" ks end).
  assert (F : rises f /\ f_pos f = pos).
  { unfold f. destruct (r_err (G r)); [destruct p; (split; [apply rises_leaf|reflexivity])|]. split; [apply rises_new, C|reflexivity]. }
  split; [|split; [exact B|split; [apply F|intros _; apply F]]].
  intros r' pos' f' Hf. cbn [s_fail] in Hf. destruct (key_dec r r' pos pos') as [K|N].
  - injection K as -> ->. rewrite m2_gss in Hf. injection Hf as <-. exact F.
  - rewrite m2_gso in Hf by exact N. exact (A _ _ _ Hf).
Qed.
End Rise.

(** ** The greatest position *)

Definition top (f : fnode) (o : Z) : Prop :=
  (forall n, In n (preorder f) -> (Z.of_nat (f_pos n) <= o)%Z) /\ exists n, In n (preorder f) /\ Z.of_nat (f_pos n) = o.

Lemma top_fun f g o o' : (forall p, In p (map f_pos (preorder f)) <-> In p (map f_pos (preorder g))) -> top f o -> top g o' -> o = o'.
Proof.
  intros E (A & n & N & B) (A' & n' & N' & B').
  assert (X : In (f_pos n) (map f_pos (preorder g))) by (apply E, in_map, N). assert (X' : In (f_pos n') (map f_pos (preorder f))) by (apply E, in_map, N').
  apply in_map_iff in X, X'. destruct X as (m & Em & M), X' as (m' & Em' & M'). specialize (A _ M'). specialize (A' _ M). rewrite Em in A'. rewrite Em' in A. lia.
Qed.

Lemma maxz_in l : forall m, FailFacts.maxz l m = m \/ In (FailFacts.maxz l m) l.
Proof.
  induction l as [|a l IH]; intros m; cbn [FailFacts.maxz]; [left; reflexivity|]. destruct (IH (Z.max m a)) as [->|H]; [|right; right; exact H].
  destruct (Z.max_spec m a) as [[_ ->]|[_ ->]]; [right; left; reflexivity|left; reflexivity].
Qed.

Lemma rises_kid i nm p w kids k : rises (FNode i nm p w kids) -> In k kids -> rises k.
Proof. intros R I n S. apply R. econstructor; eassumption. Qed.
Lemma byte_offset_top f : rises f -> top f (byte_offset f).
Proof.
  induction f as [i nm p w kids IH] using fnode_ind2. rewrite Forall_forall in IH. intros R. destruct kids as [|k kids].
  - split; [|exists (FNode i nm p w []); split; [left; reflexivity|reflexivity]]. intros n [<-|[]]. cbn. lia.
  - rewrite byte_offset_kids. set (ks := k :: kids) in *. destruct (maxz_ge (map byte_offset ks) (-1)) as [_ M].
    assert (IK : forall x, In x ks -> top x (byte_offset x)) by (intros x X; apply IH; [exact X|eapply rises_kid; eassumption]).
    assert (MK : forall x, In x ks -> (byte_offset x <= maxz (map byte_offset ks) (-1))%Z) by (intros x X; apply M, in_map, X). split.
    + intros n [<-|N].
      * cbn [f_pos]. assert (K : In k ks) by (left; reflexivity). assert (P : p <= f_pos k) by exact (R _ (SubHere _) k K). specialize (MK k K).
        destruct (IK k K) as [A _]. assert (S : In k (preorder k)) by (destruct k; left; reflexivity). specialize (A k S). lia.
      * apply in_flat_map in N. destruct N as (x & X & N). specialize (MK x X). destruct (IK x X) as [A _]. specialize (A n N). lia.
    + destruct (maxz_in (map byte_offset ks) (-1)) as [E|E].
      * exfalso. assert (K : In k ks) by (left; reflexivity). specialize (MK k K). destruct (IK k K) as [_ (n & _ & B)]. rewrite E in MK. lia.
      * apply in_map_iff in E. destruct E as (x & E & X). rewrite <- E. destruct (IK x X) as [_ (n & N & B)]. exists n. split; [right; apply in_flat_map; exists x; auto|exact B].
Qed.

Lemma after_kids s n k : In k (f_kids (after s n)) -> exists k', In k' (f_kids n) /\ k = after s k'.
Proof.
  destruct n as [i nm p w kids]. cbn [after f_kids]. destruct (PositiveMap.find (N.succ_pos i) s) as [bs|].
  - change ((fix pick (l : list fnode) (bs0 : list bool) {struct l} : list fnode :=
      match l with [] => [] | k0 :: l' => match bs0 with [] => [] | b :: bs' => if b then after s k0 :: pick l' bs' else pick l' bs' end end) kids bs) with (pick s kids bs).
    revert bs. induction kids as [|x kids IH]; intros [|[] bs] H; cbn [pick] in H; try destruct H.
    + exists x. split; [left; reflexivity|congruence].
    + destruct (IH _ H) as (k' & A & B). exists k'. split; [right; exact A|exact B].
    + destruct (IH _ H) as (k' & A & B). exists k'. split; [right; exact A|exact B].
  - intros H. apply in_map_iff in H. destruct H as (x & <- & H). exists x. split; [exact H|reflexivity].
Qed.
Lemma kid_sub n k m : In k (f_kids n) -> subn m k -> subn m n.
Proof. destruct n. cbn. intros. econstructor; eassumption. Qed.
Lemma after_sub s n : forall m, subn m (after s n) -> exists m', subn m' n /\ m = after s m'.
Proof.
  induction n as [i nm p w kids IH] using fnode_ind2. rewrite Forall_forall in IH. intros m S.
  remember (after s (FNode i nm p w kids)) as t eqn:Et. destruct S as [|i' nm' p' w' kids' k K S].
  - exists (FNode i nm p w kids). split; [constructor|exact Et].
  - assert (K' : In k (f_kids (after s (FNode i nm p w kids)))) by (rewrite <- Et; exact K). apply after_kids in K'. destruct K' as (k' & K' & ->).
    destruct (IH k' K' m S) as (m' & M & E). exists m'. split; [econstructor; [exact K'|exact M]|exact E].
Qed.
Lemma after_pos s n : f_pos (after s n) = f_pos n.
Proof. destruct n; reflexivity. Qed.
Lemma after_address s n : address (after s n) = address n.
Proof. destruct n; reflexivity. Qed.
Lemma after_rises s n : rises n -> rises (after s n).
Proof.
  intros R m S k K. apply after_sub in S. destruct S as (m' & S & ->). apply after_kids in K. destruct K as (k' & K & ->). rewrite !after_pos. exact (R m' S k' K).
Qed.

Lemma same_pos h n : consistent h n -> forall p, In p (map f_pos (preorder (dedup n))) <-> In p (map f_pos (preorder n)).
Proof.
  intros C p. rewrite (dedup_nodes h n C), map_map. rewrite (map_ext _ f_pos) by (intros; apply after_pos). rewrite !in_map_iff. split.
  - intros (m & E & M). exists m. split; [exact E|]. apply firsts_incl in M. apply M.
  - intros (m & E & M). destruct (firsts_cover (preorder n) [] m M (fun H => H)) as (m' & M' & A). exists m'. split; [|exact M'].
    assert (M2 := proj1 (firsts_incl _ _ _ M')). apply pre_sub in M, M2. apply C in M. apply C in M2. rewrite <- !address_id in *. rewrite A in M2. congruence.
Qed.
Theorem dedup_offset h n : consistent h n -> rises n -> byte_offset (dedup n) = byte_offset n.
Proof.
  intros C R. eapply top_fun; [apply (same_pos h n C)|apply byte_offset_top, after_rises, R|apply byte_offset_top, R].
Qed.

(** The plan marks nodes that stay leaves: a leaf of the tree is a leaf afterwards. *)
Lemma after_leaf s n : f_kids n = [] -> f_kids (after s n) = [].
Proof. destruct n as [i nm p w kids]. cbn. intros ->. destruct (PositiveMap.find _ s) as [[|]|]; reflexivity. Qed.
Theorem dedup_leaves h n : consistent h n -> incl (map label (leaf_fails n)) (map label (filter is_leaf (preorder (dedup n)))).
Proof.
  intros C l I. apply in_map_iff in I. destruct I as (m & <- & I). rewrite (leaf_spec h n C) in I. unfold leaves_at in I. apply filter_In in I. destruct I as [I L].
  apply andb_true_iff in L. destruct L as [L _]. apply in_map_iff. exists (after (dedup_plan n) m). split; [apply after_label|]. apply filter_In. split.
  - rewrite (dedup_nodes h n C). apply in_map, I.
  - unfold is_leaf in *. destruct (f_kids m) eqn:E; [|discriminate]. rewrite (after_leaf _ _ E). reflexivity.
Qed.
