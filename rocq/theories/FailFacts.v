(** The Fail pass terminates, stays inside the text, and builds a graph of nodes in
    which equal identities mean equal nodes; the deepest leaves of that graph. *)

From Coq Require Import String Ascii NArith ZArith PArith List Bool FMapPositive Lia PeanoNat.
From Verif Require Import Base Utf8 Utf8Facts PegSyntax Peg PegSpec PegFacts.
Import ListNotations.
Open Scope Z_scope.

(** ** Failure nodes *)

Definition f_idof (f : fnode) : N := match f with FNode i _ _ _ _ => i end.

Section FnodeInd.
  Variable P : fnode -> Prop.
  Hypothesis H : forall i nm p w kids, Forall P kids -> P (FNode i nm p w kids).
  Fixpoint fnode_ind2 (f : fnode) : P f :=
    match f with
    | FNode i nm p w kids =>
        H i nm p w kids ((fix go (l : list fnode) : Forall P l :=
          match l with [] => Forall_nil _ | k :: l' => Forall_cons _ (fnode_ind2 k) (go l') end) kids)
    end.
End FnodeInd.

(** [subn f n]: [n] is [f] or a descendant of [f]. *)
Inductive subn (n : fnode) : fnode -> Prop :=
  | SubHere : subn n n
  | SubKid i nm p w kids k : In k kids -> subn n k -> subn n (FNode i nm p w kids).

Definition heap : Type := N -> option fnode.

(** Nodes below [f] are where the heap says they are. *)
Definition consistent (h : heap) (f : fnode) : Prop := forall n, subn n f -> h (f_idof n) = Some n.
(** Their positions lie within the text. *)
Definition pos_ok (len : nat) (f : fnode) : Prop := forall n, subn n f -> (f_pos n <= len)%nat.

Definition hext (h h' : heap) : Prop := forall i n, h i = Some n -> h' i = Some n.

Lemma hext_refl h : hext h h.
Proof. intros i n H. exact H. Qed.
Lemma hext_trans a b c : hext a b -> hext b c -> hext a c.
Proof. intros H1 H2 i n H. apply H2, H1, H. Qed.
Lemma consistent_ext h h' f : hext h h' -> consistent h f -> consistent h' f.
Proof. intros H1 H2 n Hn. apply H1, H2, Hn. Qed.

Definition hset (h : heap) (i : N) (n : fnode) : heap := fun j => if N.eqb j i then Some n else h j.

Lemma hset_ext h i n : h i = None -> hext h (hset h i n).
Proof.
  intros H j m Hj. unfold hset. destruct (N.eqb j i) eqn:E; [|exact Hj].
  apply N.eqb_eq in E. subst. congruence.
Qed.

Lemma consistent_new h i nm p w kids : h i = None -> Forall (consistent h) kids ->
  consistent (hset h i (FNode i nm p w kids)) (FNode i nm p w kids).
Proof.
  intros Hi Hk n Hn. inversion Hn; subst.
  - cbn. unfold hset. rewrite N.eqb_refl. reflexivity.
  - apply hset_ext; [exact Hi|]. rewrite Forall_forall in Hk. eapply Hk; eassumption.
Qed.

Lemma pos_ok_new len i nm p w kids : (p <= len)%nat -> Forall (pos_ok len) kids -> pos_ok len (FNode i nm p w kids).
Proof.
  intros Hp Hk n Hn. inversion Hn; subst; [exact Hp|]. rewrite Forall_forall in Hk. eapply Hk; eassumption.
Qed.

Section FailFacts.

Variable G : positive -> rule.
Variable is_punct : N -> bool.
Variable text : string.
Variable nullable : positive -> bool.
Variable rank : positive -> nat.
Variable maxrank : nat.
Hypothesis wf : forall r, wf_rule G nullable rank maxrank r = true.
Variable ds : mst.
Notation L := (String.length text).
Hypothesis Hds : cons G is_punct text ds.
Variable errPos : Z.

(** The fail table is part of the heap. *)
Definition finv (h : heap) (st : fst_) : Prop :=
  (forall i, h i <> None -> (i < s_next st)%N) /\
  (forall r pos f, m2_get (s_fail st) r pos = Some f -> consistent h f /\ pos_ok L f).

Definition end_ok (pos : nat) (nu : bool) (o : option nat) : Prop :=
  match o with Some q => (pos <= q <= L)%nat /\ (nu = false -> (pos < q)%nat) | None => True end.

(** What a step does to heap and table; identities reserved before stay unused. *)
Definition fstep (h : heap) (st : fst_) (h' : heap) (st' : fst_) : Prop :=
  hext h h' /\ finv h' st' /\ (s_next st <= s_next st')%N /\
  (forall i, (i < s_next st)%N -> h i = None -> h' i = None).

Lemma fstep_refl h st : finv h st -> fstep h st h st.
Proof. intro H. split; [apply hext_refl|]. split; [exact H|]. split; [lia|]. auto. Qed.

Lemma fstep_trans h1 s1 h2 s2 h3 s3 : fstep h1 s1 h2 s2 -> fstep h2 s2 h3 s3 -> fstep h1 s1 h3 s3.
Proof.
  intros (A1 & A2 & A3 & A4) (B1 & B2 & B3 & B4). split; [eapply hext_trans; eassumption|].
  split; [exact B2|]. split; [lia|]. intros i Hi Hn. apply B4; [lia|]. apply A4; assumption.
Qed.

Definition kids_ok (h : heap) (ks : list fnode) : Prop := Forall (consistent h) ks /\ Forall (pos_ok L) ks.

Lemma kids_nil h : kids_ok h [].
Proof. split; constructor. Qed.
Lemma kids_app h a b : kids_ok h a -> kids_ok h b -> kids_ok h (a ++ b).
Proof. intros [A1 A2] [B1 B2]. split; apply Forall_app; auto. Qed.
Lemma kids_ext h h' a : hext h h' -> kids_ok h a -> kids_ok h' a.
Proof.
  intros H [A1 A2]. split; [|exact A2]. eapply Forall_impl; [|exact A1]. intros f. apply consistent_ext. exact H.
Qed.

Definition fcall_ok (call : positive -> nat -> fst_ -> option (option nat * fnode * fst_)) (pos0 k : nat) : Prop :=
  forall r pos st h, (pos0 <= pos <= L)%nat -> (pos = pos0 -> (rank r < k)%nat) -> finv h st ->
    exists o f st' h', call r pos st = Some (o, f, st') /\ fstep h st h' st' /\
      consistent h' f /\ pos_ok L f /\ end_ok pos (nullable r) o.

Definition fai_good (e : expr) (pos : nat) (st : fst_) (h : heap) (x : fres) : Prop :=
  exists o ks st' h', x = Some (o, ks, st') /\ fstep h st h' st' /\ kids_ok h' ks /\ end_ok pos (nul nullable e) o.

Lemma alloc_step h st f : finv h st -> f_idof f = s_next st -> f_kids f = [] -> (f_pos f <= L)%nat ->
  fstep h st (hset h (s_next st) f) (Fst (s_fail st) (N.succ (s_next st))) /\
  consistent (hset h (s_next st) f) f /\ pos_ok L f.
Proof.
  intros [Hn Hm] Hid Hk Hp. destruct f as [i nm p w kids]. cbn in Hid, Hk, Hp. subst i kids.
  assert (Hf : h (s_next st) = None).
  { destruct (h (s_next st)) eqn:E; [|reflexivity]. assert (h (s_next st) <> None) by congruence. apply Hn in H. lia. }
  split; [|split].
  - split; [apply hset_ext; exact Hf|]. split; [|split; cbn; [lia|]].
    + split; cbn.
      * intros i Hi. unfold hset in Hi. destruct (N.eqb i (s_next st)) eqn:E; [apply N.eqb_eq in E; lia|].
        apply Hn in Hi. lia.
      * intros r pos f Hf'. destruct (Hm _ _ _ Hf') as [C P]. split; [|exact P].
        eapply consistent_ext; [apply hset_ext; exact Hf|exact C].
    + intros i Hi Hi0. unfold hset. destruct (N.eqb i (s_next st)) eqn:E; [apply N.eqb_eq in E; lia|exact Hi0].
  - apply consistent_new; [exact Hf|constructor].
  - apply pos_ok_new; [exact Hp|constructor].
Qed.

Lemma fail_at_good e h pos pos1 want st : finv h st -> (pos1 <= L)%nat -> fai_good e pos st h (fail_at errPos pos1 want st).
Proof.
  intros Hst Hp. unfold fail_at, want_at. destruct (errPos <=? Z.of_nat pos1).
  - destruct (alloc_step h st (FNode (s_next st) "" pos1 want []) Hst eq_refl eq_refl Hp) as (A & B & C).
    eexists _, _, _, _. split; [reflexivity|]. split; [exact A|]. split; [|exact I]. split; repeat constructor; assumption.
  - eexists _, _, _, _. split; [reflexivity|]. split; [apply fstep_refl; exact Hst|]. split; [apply kids_nil|exact I].
Qed.

Lemma ok_good e h pos q st : finv h st -> (pos <= q <= L)%nat -> (nul nullable e = false -> (pos < q)%nat) ->
  fai_good e pos st h (Some (Some q, [], st)).
Proof.
  intros Hst Hp Hn. eexists _, _, _, _. split; [reflexivity|]. split; [apply fstep_refl; exact Hst|].
  split; [apply kids_nil|]. split; assumption.
Qed.

Notation floop call e1 :=
  (fix loop (n : nat) (pos : nat) (ks : list fnode) (st : fst_) {struct n} : fres :=
     match n with
     | O => None
     | S n' =>
         match fai G is_punct text call errPos e1 pos st with
         | Some (Some pos1, k1, st1) => loop n' pos1 (ks ++ k1) st1
         | Some (None, k1, st1) => Some (Some pos, ks ++ k1, st1)
         | None => None
         end
     end).

Lemma fai_ok call pos0 k : fcall_ok call pos0 k ->
  forall e pos st h, (pos0 <= pos <= L)%nat -> (pos = pos0 -> left_ok nullable rank k e = true) ->
  plus_ok nullable e = true -> finv h st ->
  fai_good e pos st h (fai G is_punct text call errPos e pos st).
Proof.
  intro Hc. induction e; intros pos st h Hp Hl Hpl Hst; cbn [fai]; cbn [left_ok plus_ok] in Hl, Hpl.
  - unfold has_lit. destruct (prefix s (sdrop pos text)) eqn:E; [|apply fail_at_good; [exact Hst|lia]].
    apply prefix_app in E. destruct E as [rest E]. assert (Hlen := f_equal String.length E). rewrite sdrop_length, slength_app in Hlen.
    apply ok_good; [exact Hst|lia|]. cbn [nul]. destruct s; [discriminate|]. cbn [String.length]. lia.
  - unfold next. destruct (decode_rune (sdrop pos text)) as [r w] eqn:E.
    destruct (next_width _ _ _ _ E ltac:(lia)) as [W1 W2].
    destruct (mem_rune r rs) eqn:M; [|apply fail_at_good; [exact Hst|lia]].
    apply ok_good; [exact Hst|lia|]. cbn [nul]. intro Hm. assert (w <> 0%nat); [|lia]. intro Hw. specialize (W2 Hw). congruence.
  - unfold next. destruct (any_ok text pos) eqn:A; [|apply fail_at_good; [exact Hst|lia]].
    apply (proj1 (any_ok_spec text pos)) in A. destruct (decode_rune (sdrop pos text)) as [r w] eqn:E. cbn [fst snd] in *.
    destruct (next_width _ _ _ _ E ltac:(lia)) as [W1 W2].
    apply ok_good; [exact Hst|lia|]. intros _. assert (w <> 0%nat); [|lia]. intro Hw. specialize (W2 Hw). contradiction.
  - unfold next. destruct (any_ok text pos) eqn:A; [|apply fail_at_good; [exact Hst|lia]].
    apply (proj1 (any_ok_spec text pos)) in A. destruct (decode_rune (sdrop pos text)) as [r w] eqn:E. cbn [fst snd] in *.
    destruct (next_width _ _ _ _ E ltac:(lia)) as [W1 W2].
    destruct (is_punct r); [|apply fail_at_good; [exact Hst|lia]].
    apply ok_good; [exact Hst|lia|]. intros _. assert (w <> 0%nat); [|lia]. intro Hw. specialize (W2 Hw). contradiction.
  - destruct (Hc r pos st h Hp (fun Q => proj1 (Nat.ltb_lt _ _) (Hl Q)) Hst) as (o & f & st' & h' & -> & A & B & C & D).
    eexists _, _, _, _. split; [reflexivity|]. split; [exact A|]. split; [|exact D].
    destruct (negb _ || negb _)%bool; [|apply kids_nil]. split; repeat constructor; assumption.
  - apply andb_true_iff in Hpl. destruct Hpl as [Hp1 Hp2].
    destruct (IHe1 pos st h Hp) as (o1 & k1 & st1 & h1 & -> & A1 & B1 & C1); [intro Q; apply Hl, andb_true_iff in Q; tauto|exact Hp1|exact Hst|].
    destruct o1 as [p1|]; [|eexists _, _, _, _; split; [reflexivity|]; split; [exact A1|]; split; [exact B1|exact I]].
    destruct C1 as [C1 N1].
    destruct (IHe2 p1 st1 h1) as (o2 & k2 & st2 & h2 & -> & A2 & B2 & C2); [lia| |exact Hp2|apply A1|].
    { intro Q. assert (Q1 : pos = pos0) by lia. apply Hl, andb_true_iff in Q1. destruct Q1 as [_ Q1].
      destruct (nul nullable e1) eqn:En; [exact Q1|]. specialize (N1 eq_refl). lia. }
    eexists _, _, _, _. split; [reflexivity|]. split; [eapply fstep_trans; eassumption|].
    split; [apply kids_app; [eapply kids_ext; [apply A2|exact B1]|exact B2]|].
    destruct o2 as [p2|]; [|exact I]. destruct C2 as [C2 N2]. split; [lia|]. cbn [nul]. intro Hn.
    apply andb_false_iff in Hn. destruct Hn as [Hn|Hn]; [specialize (N1 Hn)|specialize (N2 Hn)]; lia.
  - apply andb_true_iff in Hpl. destruct Hpl as [Hp1 Hp2].
    destruct (IHe1 pos st h Hp) as (o1 & k1 & st1 & h1 & -> & A1 & B1 & C1); [intro Q; apply Hl, andb_true_iff in Q; tauto|exact Hp1|exact Hst|].
    destruct o1 as [p1|].
    { eexists _, _, _, _; split; [reflexivity|]; split; [exact A1|]; split; [exact B1|].
      destruct C1 as [C1 N1]. split; [exact C1|]. cbn [nul]. intro Hn. apply orb_false_iff in Hn. apply N1. tauto. }
    destruct (IHe2 pos st1 h1 Hp) as (o2 & k2 & st2 & h2 & -> & A2 & B2 & C2); [intro Q; apply Hl, andb_true_iff in Q; tauto|exact Hp2|apply A1|].
    eexists _, _, _, _. split; [reflexivity|]. split; [eapply fstep_trans; eassumption|].
    split; [apply kids_app; [eapply kids_ext; [apply A2|exact B1]|exact B2]|].
    destruct o2 as [p2|]; [|exact I]. destruct C2 as [C2 N2]. split; [lia|]. cbn [nul]. intro Hn. apply orb_false_iff in Hn. apply N2. tauto.
  - apply andb_true_iff in Hpl. destruct Hpl as [Hn Hpl]. apply negb_true_iff in Hn.
    destruct (IHe pos st h Hp Hl Hpl Hst) as (o1 & k1 & st1 & h1 & -> & A1 & B1 & C1).
    destruct o1 as [p1|]; [|eexists _, _, _, _; split; [reflexivity|]; split; [exact A1|]; split; [exact B1|exact I]].
    destruct C1 as [C1 N1]. specialize (N1 Hn).
    assert (HL : forall n p ks st h, (L - p < n)%nat -> (pos0 < p <= L)%nat -> finv h st -> kids_ok h ks ->
      exists q ks' st' h', floop call e n p ks st = Some (Some q, ks', st') /\ fstep h st h' st' /\ kids_ok h' ks' /\ (p <= q <= L)%nat).
    { clear - IHe Hpl Hn wf Hds. induction n as [|n IHn]; intros p ks st h Hlt Hp Hst Hks; [lia|].
      destruct (IHe p st h ltac:(lia) ltac:(intro; lia) Hpl Hst) as (o1 & k1 & st1 & h1 & -> & A1 & B1 & C1).
      assert (K1 : kids_ok h1 (ks ++ k1)) by (apply kids_app; [eapply kids_ext; [apply A1|exact Hks]|exact B1]).
      destruct o1 as [p1|].
      - destruct C1 as [C1 N1]. specialize (N1 Hn).
        destruct (IHn p1 (ks ++ k1) st1 h1 ltac:(lia) ltac:(lia) (proj1 (proj2 A1)) K1) as (q & ks' & st' & h' & E & A2 & B2 & C2).
        exists q, ks', st', h'. split; [exact E|]. split; [eapply fstep_trans; eassumption|]. split; [exact B2|lia].
      - eexists _, _, _, _. split; [reflexivity|]. split; [exact A1|]. split; [exact K1|lia]. }
    destruct (HL (S L) p1 k1 st1 h1 ltac:(lia) ltac:(lia) (proj1 (proj2 A1)) B1) as (q & ks' & st' & h' & E & A2 & B2 & C2).
    exists (Some q), ks', st', h'. split; [exact E|]. split; [eapply fstep_trans; eassumption|]. split; [exact B2|].
    split; [lia|]. intros _. lia.
  - destruct (IHe pos st h Hp Hl Hpl Hst) as (o1 & k1 & st1 & h1 & -> & A1 & B1 & C1).
    destruct o1 as [p1|]; (eexists _, _, _, _; split; [reflexivity|]; split; [exact A1|]; split; [exact B1|]).
    + destruct C1 as [C1 N1]. split; [exact C1|]. discriminate.
    + split; [lia|]. discriminate.
  - destruct (IHe pos st h Hp Hl Hpl Hst) as (o1 & k1 & st1 & h1 & -> & A1 & B1 & C1).
    destruct o1 as [p1|].
    + eexists _, _, _, _; split; [reflexivity|]; split; [exact A1|]; split; [apply kids_nil|]. split; [lia|discriminate].
    + destruct (fail_at_good (EAnd e) h1 pos pos (show G (EAnd e)) st1 (proj1 (proj2 A1)) ltac:(lia)) as (o2 & k2 & st2 & h2 & E & A2 & B2 & C2).
      exists o2, k2, st2, h2. split; [exact E|]. split; [eapply fstep_trans; eassumption|]. split; assumption.
  - destruct (IHe pos st h Hp Hl Hpl Hst) as (o1 & k1 & st1 & h1 & -> & A1 & B1 & C1).
    destruct o1 as [p1|].
    + destruct (fail_at_good (ENot e) h1 pos pos (show G (ENot e)) st1 (proj1 (proj2 A1)) ltac:(lia)) as (o2 & k2 & st2 & h2 & E & A2 & B2 & C2).
      exists o2, k2, st2, h2. split; [exact E|]. split; [eapply fstep_trans; eassumption|]. split; assumption.
    + eexists _, _, _, _; split; [reflexivity|]; split; [exact A1|]; split; [apply kids_nil|]. split; [lia|discriminate].
  - apply IHe; assumption.
  - apply IHe; assumption.
  - apply IHe; assumption.
Qed.

(** Positions that failMemo computes from the delta table. *)
Lemma memo_end r pos dp de : delta ds r pos = (dp, de) -> 0 < dp ->
  end_ok pos (nullable r) (Some (Z.to_nat (Z.of_nat pos + (dp - 1)))).
Proof.
  unfold delta. destruct (m2_get (s_delta ds) r pos) as [[dp0 de0]|] eqn:E; [|intro H; injection H; lia].
  intros H Hdp. injection H as -> ->. destruct (Hds _ _ _ _ E) as (Hp & res & err & Hs & -> & _).
  destruct res as [[p ks]|]; cbn [enc1] in *; [|lia].
  destruct (sem_some _ _ _ _ _ _ wf _ _ _ _ _ Hs Hp) as [B N]. cbn [nul] in N.
  replace (Z.to_nat (Z.of_nat pos + (Z.of_nat p - Z.of_nat pos + 1 - 1))) with p by lia. split; assumption.
Qed.

Lemma empty_step h st : finv h st ->
  let f := FNode (s_next st) "" 0 "" [] in
  let st' := Fst (s_fail st) (N.succ (s_next st)) in
  exists h', fstep h st h' st' /\ consistent h' f /\ pos_ok L f.
Proof.
  intros Hst. cbn zeta. exists (hset h (s_next st) (FNode (s_next st) "" 0 "" [])).
  apply alloc_step; try reflexivity; [exact Hst|cbn; lia].
Qed.

Lemma failMemo_ok r pos st h o f st' : finv h st -> failMemo ds r pos errPos st = Some (o, f, st') ->
  exists h', fstep h st h' st' /\ consistent h' f /\ pos_ok L f /\ end_ok pos (nullable r) o.
Proof.
  intros Hst. unfold failMemo. cbn [fst snd]. destruct (empty_step h st Hst) as (h' & A & B & C).
  destruct (s_lastFail ds <? Z.of_nat pos).
  { intro H. injection H as <- <- <-. exists h'. split; [exact A|]. split; [exact B|]. split; [exact C|exact I]. }
  destruct (delta ds r pos) as [dp de] eqn:Ed.
  destruct (Z.of_nat pos + (de - 1) <? errPos).
  - destruct (0 <? dp) eqn:Hdp; intro H; injection H as <- <- <-; exists h'; split; try exact A; split; try exact B; split; try exact C.
    + apply Z.ltb_lt in Hdp. eapply memo_end; eassumption.
    + exact I.
  - destruct (m2_get (s_fail st) r pos) as [f0|] eqn:Ef; [|discriminate].
    destruct (proj2 Hst _ _ _ Ef) as [C0 P0].
    destruct (dp <? 0); [|destruct (0 <? dp) eqn:Hdp; [|discriminate]]; intro H; injection H as <- <- <-;
      exists h; (split; [apply fstep_refl; exact Hst|]); (split; [exact C0|]); (split; [exact P0|]).
    + exact I.
    + apply Z.ltb_lt in Hdp. eapply memo_end; eassumption.
Qed.

Lemma fail_ok fuel : forall r pos st h, (depth text rank maxrank r pos <= fuel)%nat -> (pos <= L)%nat -> finv h st ->
  exists o f st' h', fail_of G is_punct text ds errPos fuel r pos st = Some (o, f, st') /\ fstep h st h' st' /\
    consistent h' f /\ pos_ok L f /\ end_ok pos (nullable r) o.
Proof.
  induction fuel as [|fuel IH]; intros r pos st h Hd Hp Hst; [unfold depth in Hd; lia|].
  cbn [fail_of]. destruct (failMemo ds r pos errPos st) as [[[o f] st']|] eqn:Em.
  { destruct (failMemo_ok _ _ _ _ _ _ _ Hst Em) as (h' & A & B & C & D). exists o, f, st', h'. auto. }
  set (st1 := Fst (s_fail st) (N.succ (s_next st))).
  assert (Hst1 : finv h st1).
  { destruct Hst as [H1 H2]. split; [|exact H2]. intros i Hi. apply H1 in Hi. unfold st1. cbn. lia. }
  destruct (fai_ok (fail_of G is_punct text ds errPos fuel) pos (rank r) ltac:(
      intros r' pos' st' h' Hp' Hr' Hst'; apply IH; try assumption; [|lia];
      pose proof (depth_step _ _ _ _ _ wf r r' pos pos' Hp' Hr'); lia)
    (r_body (G r)) pos st1 h ltac:(lia)) as (o & ks & st2 & h2 & -> & A & B & C).
  - intros _. eapply wf_left. exact wf.
  - eapply wf_plus. exact wf.
  - exact Hst1.
  - set (f := match r_err (G r), o with
              | Some _, Some _ => FNode (s_next st) (r_name (G r)) pos "" []
              | Some w, None => FNode (s_next st) (r_name (G r)) pos w []
              | None, _ => FNode (s_next st) (r_name (G r)) pos "" ks
              end).
    assert (Hf : exists w ks0, f = FNode (s_next st) (r_name (G r)) pos w ks0 /\ kids_ok h2 ks0).
    { unfold f. destruct (r_err (G r)); [destruct o|]; eexists _, _; (split; [reflexivity|]); (apply kids_nil || exact B). }
    destruct Hf as (w & ks0 & Ef & Hk0).
    destruct A as (A1 & A2 & A3 & A4). cbn [s_next] in A3, A4.
    assert (Hfree : h2 (s_next st) = None).
    { apply A4; [cbn; lia|]. destruct (h (s_next st)) eqn:E; [|reflexivity].
      assert (h (s_next st) <> None) by congruence. apply (proj1 Hst) in H. lia. }
    assert (Hcf : consistent (hset h2 (s_next st) f) f) by (rewrite Ef; apply consistent_new; [exact Hfree|apply Hk0]).
    assert (Hpf : pos_ok L f) by (rewrite Ef; apply pos_ok_new; [exact Hp|apply Hk0]).
    exists o, f, (Fst (m2_set (s_fail st2) r pos f) (s_next st2)), (hset h2 (s_next st) f).
    split; [reflexivity|]. split; [|split; [exact Hcf|split; [exact Hpf|]]].
    + split; [eapply hext_trans; [exact A1|apply hset_ext; exact Hfree]|]. split; [|split].
      * split; cbn [s_fail s_next].
        -- intros i Hi. unfold hset in Hi. unfold st1 in A3. cbn in A3. destruct (N.eqb i (s_next st)) eqn:E; [apply N.eqb_eq in E; lia|].
           apply (proj1 A2). exact Hi.
        -- intros r' pos' f' Hf'. destruct (key_dec r r' pos pos') as [E|N].
           ++ injection E as -> ->. rewrite m2_gss in Hf'. injection Hf' as <-. split; assumption.
           ++ rewrite m2_gso in Hf' by exact N. destruct (proj2 A2 _ _ _ Hf') as [C' P']. split; [|exact P'].
              eapply consistent_ext; [apply hset_ext; exact Hfree|exact C'].
      * cbn [s_next]. unfold st1 in A3. cbn in A3. lia.
      * intros i Hi Hi0. unfold hset. destruct (N.eqb i (s_next st)) eqn:E; [apply N.eqb_eq in E; lia|].
        apply A4; [unfold st1; cbn; lia|exact Hi0].
    + destruct o as [q|]; [|exact I]. destruct C as [C N]. split; [exact C|]. intro Hn. apply N.
      destruct (nul nullable (r_body (G r))) eqn:E; [|reflexivity]. rewrite (wf_nul _ _ _ _ wf _ E) in Hn. discriminate.
Qed.

End FailFacts.

(** ** Deepest leaves *)

Fixpoint fsize (f : fnode) : nat :=
  match f with FNode _ _ _ _ kids => S (fold_right (fun k n => (fsize k + n)%nat) 0%nat kids) end.

Lemma fsize_kid k kids : In k kids -> (fsize k <= fold_right (fun k n => (fsize k + n)%nat) 0%nat kids)%nat.
Proof.
  induction kids as [|a l IH]; cbn; [tauto|]. intros [->|H]; [lia|]. specialize (IH H). lia.
Qed.

Fixpoint maxz (l : list Z) (m : Z) : Z := match l with [] => m | o :: l' => maxz l' (Z.max m o) end.

Lemma fold_maxz l : forall m,
  fold_left (fun m k => let o := byte_offset k in if m <? o then o else m) l m = maxz (map byte_offset l) m.
Proof.
  induction l as [|k l IH]; intro m; cbn; [reflexivity|]. rewrite IH. f_equal.
  destruct (m <? byte_offset k) eqn:E; [apply Z.ltb_lt in E|apply Z.ltb_ge in E]; lia.
Qed.

Lemma maxz_ge l : forall m, m <= maxz l m /\ (forall o, In o l -> o <= maxz l m).
Proof.
  induction l as [|a l IH]; intro m; cbn; [split; [lia|tauto]|].
  destruct (IH (Z.max m a)) as [H1 H2]. split; [lia|]. intros o [->|H]; [lia|]. apply H2, H.
Qed.

Lemma maxz_le l b : forall m, m <= b -> (forall o, In o l -> o <= b) -> maxz l m <= b.
Proof.
  induction l as [|a l IH]; intros m Hm H; cbn; [exact Hm|]. apply IH; [|intros; apply H; right; assumption].
  specialize (H a (or_introl eq_refl)). lia.
Qed.

Lemma byte_offset_kids i nm p w k kids :
  byte_offset (FNode i nm p w (k :: kids)) = maxz (map byte_offset (k :: kids)) (-1).
Proof. cbn [byte_offset]. apply fold_maxz. Qed.

Lemma byte_offset_bounds len f : pos_ok len f -> 0 <= byte_offset f <= Z.of_nat len.
Proof.
  induction f as [i nm p w kids IH] using fnode_ind2. intro H.
  destruct kids as [|k kids].
  - cbn. specialize (H _ (SubHere _)). cbn in H. lia.
  - rewrite byte_offset_kids. rewrite Forall_forall in IH.
    assert (Hk : forall k0, In k0 (k :: kids) -> 0 <= byte_offset k0 <= Z.of_nat len).
    { intros k0 H0. apply IH; [exact H0|]. intros n Hn. apply H. eapply SubKid; eassumption. }
    split.
    + destruct (maxz_ge (map byte_offset (k :: kids)) (-1)) as [_ H2].
      specialize (H2 (byte_offset k) (or_introl eq_refl)). specialize (Hk k (or_introl eq_refl)). lia.
    + apply maxz_le; [lia|]. intros o Ho. apply in_map_iff in Ho. destruct Ho as (k0 & <- & H0). apply Hk. exact H0.
Qed.

Section Leaves.

Variable h : heap.

Definition seen (s : leafst) (i : N) : Prop := PositiveMap.find (N.succ_pos i) (lf_seen s) <> None.

(** The leaves collected are at lf_pos, and there are some once lf_pos is set. *)
Definition lfinv (s : leafst) : Prop :=
  -1 <= lf_pos s /\
  (forall n, In n (lf_fails s) -> f_kids n = [] /\ Z.of_nat (f_pos n) = lf_pos s) /\
  (0 <= lf_pos s -> lf_fails s <> []).

Definition lstep (s s' : leafst) : Prop :=
  lfinv s' /\ lf_pos s <= lf_pos s' /\
  (forall i, seen s i -> seen s' i) /\
  (forall i, seen s' i -> seen s i \/ forall n, h i = Some n -> byte_offset n <= lf_pos s').

Lemma lstep_refl s : lfinv s -> lstep s s.
Proof. intro H. split; [exact H|]. split; [lia|]. split; auto. Qed.

Lemma lstep_trans a b c : lstep a b -> lstep b c -> lstep a c.
Proof.
  intros (A1 & A2 & A3 & A4) (B1 & B2 & B3 & B4). split; [exact B1|]. split; [lia|]. split; [auto|].
  intros i Hi. destruct (B4 i Hi) as [H|H]; [|right; exact H]. destruct (A4 i H) as [H'|H']; [left; exact H'|].
  right. intros n Hn. specialize (H' n Hn). lia.
Qed.

Lemma seen_add m i j : PositiveMap.find (N.succ_pos j) (PositiveMap.add (N.succ_pos i) tt m) <> None <->
  j = i \/ PositiveMap.find (N.succ_pos j) m <> None.
Proof.
  destruct (N.eq_dec j i) as [->|Hn].
  - rewrite PositiveMap.gss. split; [auto|discriminate].
  - rewrite PositiveMap.gso.
    + split; [auto|]. intros [E|H]; [contradiction|exact H].
    + intro E. apply Hn. apply (f_equal Npos) in E. rewrite !N.succ_pos_spec in E. lia.
Qed.

Notation walks :=
  (fix walks (l : list fnode) (s : leafst) : leafst :=
     match l with
     | [] => s
     | k :: l' => walks l' (leaf_walk k s)
     end).

(** Nodes seen before are ancestors (larger than [K]) or done. *)
Definition done (K : nat) (s : leafst) : Prop :=
  forall i n, seen s i -> h i = Some n -> (K < fsize n)%nat \/ byte_offset n <= lf_pos s.

Lemma done_step K s s' : lstep s s' -> done K s -> done K s'.
Proof.
  intros (_ & A2 & _ & A4) H i n Hi Hn. destruct (A4 i Hi) as [Hs|Hs]; [|right; apply Hs; exact Hn].
  destruct (H i n Hs Hn) as [H1|H1]; [left; exact H1|right; lia].
Qed.

Lemma leaf_walk_ok n : consistent h n -> forall s K, lfinv s -> (fsize n <= K)%nat -> done K s ->
  lstep s (leaf_walk n s) /\ byte_offset n <= lf_pos (leaf_walk n s) <= Z.max (lf_pos s) (byte_offset n).
Proof.
  induction n as [i nm p w kids IH] using fnode_ind2. intros Hc s K Hs HK Hd.
  cbn [leaf_walk]. destruct (PositiveMap.find (N.succ_pos i) (lf_seen s)) eqn:Es.
  { assert (Hseen : seen s i) by (unfold seen; congruence).
    assert (Hh : h i = Some (FNode i nm p w kids)) by (apply (Hc _ (SubHere _))).
    split; [apply lstep_refl; exact Hs|]. destruct (Hd _ _ Hseen Hh) as [H|H]; lia. }
  set (s1 := Leafst (PositiveMap.add (N.succ_pos i) tt (lf_seen s)) (lf_pos s) (lf_fails s)).
  destruct Hs as (S1 & S2 & S3).
  destruct kids as [|k kids].
  - cbn [lf_pos s1 byte_offset]. cbn [lf_seen lf_fails].
    assert (HH : forall pos' fails', lf_pos s <= pos' -> Z.of_nat p <= pos' -> lfinv (Leafst (lf_seen s1) pos' fails') ->
      lstep s (Leafst (lf_seen s1) pos' fails')).
    { intros pos' fails' H1 H2 H3. split; [exact H3|]. split; [exact H1|]. split.
      - intros j Hj. apply seen_add. right. exact Hj.
      - intros j Hj. apply seen_add in Hj. destruct Hj as [->|Hj]; [|left; exact Hj].
        right. intros n Hn. assert (Hh : h i = Some (FNode i nm p w [])) by (apply (Hc _ (SubHere _))).
        rewrite Hh in Hn. injection Hn as <-. exact H2. }
    destruct (lf_pos s <? Z.of_nat p) eqn:E1.
    { apply Z.ltb_lt in E1. split; [|cbn; lia]. apply HH; [lia|lia|]. split; cbn; [lia|]. split; [|intros _; discriminate].
      intros n [<-|[]]. split; reflexivity. }
    apply Z.ltb_ge in E1. destruct (Z.of_nat p =? lf_pos s) eqn:E2.
    { apply Z.eqb_eq in E2. split; [|cbn; lia]. apply HH; [lia|lia|]. split; cbn; [lia|]. split; [|intros _; destruct (lf_fails s); discriminate].
      intros n Hn. apply in_app_iff in Hn. destruct Hn as [Hn|[<-|[]]]; [apply S2; exact Hn|]. split; [reflexivity|exact E2]. }
    apply Z.eqb_neq in E2. split; [|cbn; lia]. apply HH; [lia|lia|]. split; [exact S1|]. split; assumption.
  - rewrite byte_offset_kids. set (ks := k :: kids) in *.
    assert (Hin : forall l, incl l ks -> forall s, lfinv s -> done (fsize (FNode i nm p w ks) - 1) s ->
       lstep s (walks l s) /\ (forall k0, In k0 l -> byte_offset k0 <= lf_pos (walks l s)) /\
       lf_pos (walks l s) <= maxz (map byte_offset l) (lf_pos s)).
    { clear s S1 S2 S3 Es s1 Hd HK. rewrite Forall_forall in IH. induction l as [|a l IHl]; intros Hl s Hs Hd.
      - split; [apply lstep_refl; exact Hs|]. split; [intros k0 []|cbn; lia].
      - assert (Ha : In a ks) by (apply Hl; left; reflexivity).
        assert (Hca : consistent h a) by (intros n Hn; apply Hc; eapply SubKid; eassumption).
        assert (Hsz : (fsize a <= fsize (FNode i nm p w ks) - 1)%nat) by (cbn [fsize]; pose proof (fsize_kid _ _ Ha); lia).
        destruct (IH a Ha Hca s _ Hs Hsz Hd) as [W1 W2].
        destruct (IHl ltac:(intros x Hx; apply Hl; right; exact Hx) (leaf_walk a s) (proj1 W1) (done_step _ _ _ W1 Hd)) as (V1 & V2 & V3).
        split; [eapply lstep_trans; eassumption|]. split.
        + intros k0 [<-|H0]; [|apply V2; exact H0]. destruct V1 as (_ & V1 & _). lia.
        + cbn [map maxz]. eapply Z.le_trans; [exact V3|].
          clear - W2. destruct W2 as [_ W2]. revert W2. generalize (lf_pos (leaf_walk a s)) (Z.max (lf_pos s) (byte_offset a)).
          induction (map byte_offset l) as [|b m IHm]; intros u v H; cbn; [exact H|]. apply IHm. lia. }
    assert (Hs1 : lfinv s1) by (split; [exact S1|split; assumption]).
    assert (Hd1 : done (fsize (FNode i nm p w ks) - 1) s1).
    { intros j n Hj Hn. apply seen_add in Hj. destruct Hj as [->|Hj].
      - left. assert (Hh : h i = Some (FNode i nm p w ks)) by (apply (Hc _ (SubHere _))). rewrite Hh in Hn. injection Hn as <-.
        cbn [fsize]. lia.
      - destruct (Hd _ _ Hj Hn) as [H|H]; [left; lia|right; exact H]. }
    destruct (Hin ks (incl_refl _) s1 Hs1 Hd1) as (V1 & V2 & V3).
    assert (V4 : maxz (map byte_offset ks) (-1) <= lf_pos (walks ks s1)).
    { apply maxz_le; [apply V1|]. intros o Ho. apply in_map_iff in Ho. destruct Ho as (k0 & <- & H0). apply V2. exact H0. }
    split.
    + destruct V1 as (A1 & A2 & A3 & A4). split; [exact A1|]. split; [exact A2|]. split.
      * intros j Hj. apply A3. apply seen_add. right. exact Hj.
      * intros j Hj. destruct (A4 j Hj) as [H|H]; [|right; exact H]. apply seen_add in H. destruct H as [->|H]; [|left; exact H].
        right. intros n Hn. assert (Hh : h i = Some (FNode i nm p w ks)) by (apply (Hc _ (SubHere _))). rewrite Hh in Hn. injection Hn as <-.
        unfold ks at 1. rewrite byte_offset_kids. exact V4.
    + split; [exact V4|]. eapply Z.le_trans; [exact V3|]. cbn [lf_pos s1].
      assert (HM : forall l m1 m2, maxz l (Z.max m1 m2) = Z.max m1 (maxz l m2)).
      { clear. induction l as [|a l IHl]; intros; cbn; [reflexivity|]. rewrite <- Z.max_assoc. apply IHl. }
      replace (lf_pos s) with (Z.max (lf_pos s) (-1)) by lia. rewrite HM. lia.
Qed.

(** LeafFails returns leaves, at least one, all at the offset that byteOffset finds. *)
Lemma leaf_fails_ok n : consistent h n ->
  leaf_fails n <> [] /\ forall l, In l (leaf_fails n) -> f_kids l = [] /\ Z.of_nat (f_pos l) = byte_offset n.
Proof.
  intro Hc. unfold leaf_fails. set (s0 := Leafst (PositiveMap.empty unit) (-1) []).
  assert (H0 : lfinv s0) by (split; [cbn; lia|]; split; [intros x []|cbn; lia]).
  assert (Hd : done (fsize n) s0) by (intros i m Hi; exfalso; apply Hi; apply PositiveMap.gempty).
  destruct (leaf_walk_ok n Hc s0 (fsize n) H0 (le_n _) Hd) as [(A & B & _) C].
  assert (0 <= byte_offset n).
  { clear. induction n as [i nm p w kids IH] using fnode_ind2. destruct kids as [|k kids]; [cbn; lia|].
    rewrite byte_offset_kids. destruct (maxz_ge (map byte_offset (k :: kids)) (-1)) as [_ H2].
    specialize (H2 (byte_offset k) (or_introl eq_refl)). inversion IH; subst. lia. }
  destruct A as (_ & A2 & A3). cbn [lf_pos s0] in C. split; [apply A3; lia|].
  intros l Hl. destruct (A2 l Hl) as [E1 E2]. split; [exact E1|]. rewrite E2. lia.
Qed.

End Leaves.
