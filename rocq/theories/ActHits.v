(** Which entries of the table of values an Action pass finds. *)

From Coq Require Import String Ascii NArith ZArith PArith List FMapPositive Lia Bool.
From Verif Require Import Base Utf8 PegSyntax Grammar Peg PegToaq PegSpec PegFacts PegToaqFacts NodeFacts
  Ast Action ActionSpec ActionFacts Parser ParserSpec ParserFacts.
Import ListNotations.
Open Scope N_scope.

(** From [st] to [st'] only new serial numbers are stored, and only those of [st] or new
    ones are found. *)
Definition grow (st st' : ast_) : Prop :=
  a_next st <= a_next st' /\
  (forall r pos id v, m2_get (a_map st') r pos = Some (id, v) ->
     m2_get (a_map st) r pos = Some (id, v) \/ a_next st <= id) /\
  (forall i, In i (a_hits st') -> In i (a_hits st) \/ a_next st <= i \/
     exists r pos v, m2_get (a_map st) r pos = Some (i, v)).

Lemma grow_refl st : grow st st.
Proof. split; [lia|]. split; auto. Qed.
Lemma grow_trans a b c : grow a b -> grow b c -> grow a c.
Proof.
  intros (A1 & A2 & A3) (B1 & B2 & B3). split; [lia|]. split.
  - intros r pos id v H. destruct (B2 _ _ _ _ H) as [H1|H1]; [apply A2; exact H1|right; lia].
  - intros i H. destruct (B3 _ H) as [H1|[H1|(r & pos & v & H1)]]; [apply A3; exact H1|right; left; lia|].
    destruct (A2 _ _ _ _ H1) as [H2|H2]; [eauto 6|right; left; exact H2].
Qed.

Notation aloop is_punct text call e1 :=
  (fix loop (n : nat) (pos : nat) (v : val) (st : ast_) {struct n} : acres :=
     match n with
     | O => None
     | S n' =>
         match ac is_punct text call e1 pos st with
         | Some (AOk p1 (v1, _), st1) => loop n' p1 (vplus v v1) st1
         | Some (AFail, st1) => Some (AOk pos (v, []), st1)
         | x => x
         end
     end).

Section Hits.
Variable G : positive -> rule.
Variable is_punct : N -> bool.
Variable text : string.

Lemma ac_grow call : (forall r pos st o st', call r pos st = Some (o, st') -> grow st st') ->
  forall e pos st o st', ac is_punct text call e pos st = Some (o, st') -> grow st st'.
Proof.
  intro Hc. induction e; intros pos st o st' H; cbn [ac] in H;
  try (unfold leaf_ok in H; destruct (next text pos) as [nr nw];
       repeat match type of H with (if ?b then _ else _) = _ => destruct b end; injection H as <- <-; apply grow_refl);
  try (apply IHe in H; exact H).
  - destruct (call r pos st) as [[[| |] st1]|] eqn:E; [| | |discriminate]; injection H as <- <-; eapply Hc; exact E.
  - destruct (ac is_punct text call e1 pos st) as [[[| |p1 [v1 en1]] st1]|] eqn:E1; [| | |discriminate].
    1,2: injection H as <- <-; eapply IHe1; exact E1.
    destruct (ac is_punct text call e2 p1 st1) as [[[| |p2 [v2 en2]] st2]|] eqn:E2; [| | |discriminate];
      injection H as <- <-; eapply grow_trans; [eapply IHe1; exact E1|eapply IHe2; exact E2|
        eapply IHe1; exact E1|eapply IHe2; exact E2|eapply IHe1; exact E1|eapply IHe2; exact E2].
  - destruct (ac is_punct text call e1 pos st) as [[[| |p1 [v1 en1]] st1]|] eqn:E1; [| | |discriminate].
    2,3: injection H as <- <-; eapply IHe1; exact E1.
    eapply grow_trans; [eapply IHe1; exact E1|eapply IHe2; exact H].
  - destruct (ac is_punct text call e pos st) as [[[| |p1 [v1 en1]] st1]|] eqn:E1; [| | |discriminate].
    1,2: injection H as <- <-; eapply IHe; exact E1.
    eapply grow_trans; [eapply IHe; exact E1|]. clear E1.
    assert (HL : forall n w p1 st1, aloop is_punct text call e n p1 w st1 = Some (o, st') -> grow st1 st').
    { clear H. induction n as [|n IHn]; intros w p2 st2 H; [discriminate|]. cbn beta iota in H.
      destruct (ac is_punct text call e p2 st2) as [[[| |p3 [v3 en3]] st3]|] eqn:E2; [| | |discriminate].
      1,2: injection H as <- <-; eapply IHe; exact E2.
      eapply grow_trans; [eapply IHe; exact E2|]. eapply IHn. exact H. }
    exact (HL (S (String.length text)) (vplus0 v1) p1 st1 H).
  - destruct (ac is_punct text call e pos st) as [[[| |p1 [v1 en1]] st1]|] eqn:E1; [| | |discriminate];
      injection H as <- <-; eapply IHe; exact E1.
  - destruct (ac is_punct text call e pos st) as [[[| |p1 [v1 en1]] st1]|] eqn:E1; [| | |discriminate];
      injection H as <- <-; eapply IHe; exact E1.
  - destruct (ac is_punct text call e pos st) as [[[| |p1 [v1 en1]] st1]|] eqn:E1; [| | |discriminate];
      injection H as <- <-; eapply IHe; exact E1.
  - destruct (ac is_punct text call e pos st) as [[[| |p1 [v1 en1]] st1]|] eqn:E1; [| | |discriminate];
      injection H as <- <-; eapply IHe; exact E1.
  - destruct (ac is_punct text call e pos st) as [[[| |p1 [v1 en1]] st1]|] eqn:E1; [| | |discriminate].
    1,2: injection H as <- <-; eapply IHe; exact E1.
    destruct (run_action a args pos p1 en1); [| |discriminate]; injection H as <- <-; eapply IHe; exact E1.
Qed.

Lemma action_grow ds fuel : forall r pos st o st', action_of G is_punct text ds fuel r pos st = Some (o, st') -> grow st st'.
Proof.
  induction fuel as [|fuel IH]; intros r pos st o st' H; [discriminate|]. cbn [action_of] in H.
  destruct (fst (delta ds r pos) <? 0)%Z; [injection H as <- <-; apply grow_refl|].
  destruct (m2_get (a_map st) r pos) as [[id v]|] eqn:E.
  - injection H as <- <-. split; [cbn; lia|]. split; [auto|]. cbn. intros i [<-|Hi]; [eauto 6|auto].
  - destruct (ac is_punct text (action_of G is_punct text ds fuel) (r_body (G r)) pos st) as [[[| |p1 [v1 en1]] st1]|] eqn:E1; [| | |discriminate].
    1,2: injection H as <- <-; eapply ac_grow; [exact IH|exact E1].
    injection H as <- <-. eapply grow_trans; [eapply ac_grow; [exact IH|exact E1]|].
    split; [cbn; lia|]. split; [|auto]. cbn. intros r' pos' id' v' H'.
    destruct (key_dec r r' pos pos') as [Q|N].
    + injection Q as -> ->. rewrite m2_gss in H'. injection H' as <- <-. right. lia.
    + rewrite m2_gso in H' by exact N. left. exact H'.
Qed.

End Hits.

(** ** Text *)

Section Text.
Variable is_punct : N -> bool.
Variable text : string.

Lemma reach_tt_reach p : reach_tt is_punct text p -> reach is_punct text p.
Proof. induction 1; econstructor; assumption. Qed.

Definition act_empty (p : parser) : Prop := forall r pos, m2_get (a_map (q_act p)) r pos = None.

Lemma parse_act r start p : q_act (snd (parse is_punct r start p)) = q_act p.
Proof.
  unfold parse. destruct (String.length (q_text p) <? start)%nat; [reflexivity|].
  destruct (accepts _ _ _ _ _ _ _) as [[[dp de] m1]|]; [|reflexivity].
  destruct (0 <=? dp)%Z; [reflexivity|].
  destruct (fail_of _ _ _ _ _ _ _ _ _) as [[[? ?] ?]|]; [|reflexivity]. destruct (simple_error _ _); reflexivity.
Qed.

Lemma tree_act p : q_act (snd (tree is_punct p)) = q_act p.
Proof.
  pose proof (parse_act r_full_text 0 p) as H. unfold tree. destruct (parse is_punct r_full_text 0 p) as [[[e|]| |] p1]; cbn in H |- *; try exact H.
  destruct (node_of _ _ _ _ _ _ _ _) as [[[[? ?]|] ?]|]; exact H.
Qed.

(** What a Text call can find, and what it leaves. *)
Lemma text_hits p n p' : text_of is_punct p = (Ok (Got (Some n)), p') -> act_empty p ->
  forall i, In i (a_hits (q_act p')) -> a_next (q_act p) <= i.
Proof.
  intros H He. pose proof (parse_act r_full_text 0 p) as Ha. unfold text_of in H.
  destruct (parse is_punct r_full_text 0 p) as [[[e|]| |] p1]; try discriminate. cbn in Ha.
  destruct (action_of _ _ _ _ _ _ _ _) as [[o a1]|] eqn:E; [|discriminate].
  apply action_grow in E. destruct E as (_ & _ & E). cbn [start_act a_hits a_map a_next] in E.
  destruct o as [| |q v]; try discriminate. destruct v; try discriminate. injection H as _ <-. cbn.
  intros i Hi. destruct (E i Hi) as [[]|[H1|(r & pos & v & H1)]]; [rewrite <- Ha; exact H1|].
  rewrite Ha, He in H1. discriminate.
Qed.

(** The table is empty unless a Text call panicked, and then Text always panics. *)
Lemma tt_inv p : reach_tt is_punct text p -> act_empty p \/ exists q, text_spec is_punct text (Panic q).
Proof.
  induction 1 as [|p H IH|p H IH].
  - left. intros r pos. apply m2_get_empty.
  - destruct IH as [IH|IH]; [left|right; exact IH]. intros r pos. rewrite tree_act. apply IH.
  - destruct IH as [IH|IH]; [|right; exact IH].
    pose proof (text_ok is_punct text p (reach_pinv _ _ _ (reach_tt_reach _ H))) as [Hs _].
    destruct (fst (text_of is_punct p)) as [o|q|] eqn:Ef; [left|right; eauto|inversion Hs].
    unfold text_of in *. pose proof (parse_act r_full_text 0 p) as Ha.
    destruct (parse is_punct r_full_text 0 p) as [[[e|]| |] p1]; try discriminate; cbn in Ha.
    + intros r pos. cbn. rewrite Ha. apply IH.
    + destruct (action_of _ _ _ _ _ _ _ _) as [[[| |q v] a1]|]; try discriminate.
      * intros r pos. cbn. apply m2_get_empty.
      * destruct v; try discriminate. intros r pos. cbn. apply m2_get_empty.
Qed.

Lemma text_fresh p n p' : reach_tt is_punct text p -> text_of is_punct p = (Ok (Got (Some n)), p') ->
  forall i, In i (a_hits (q_act p')) -> a_next (q_act p) <= i.
Proof.
  intros H Ht. destruct (tt_inv p H) as [He|(q & Hq)]; [eapply text_hits; eassumption|].
  exfalso. pose proof (text_ok is_punct text p (reach_pinv _ _ _ (reach_tt_reach _ H))) as [Hs _]. rewrite Ht in Hs. cbn in Hs.
  inversion Hs as [p0 n0 k err S1 V1 Q| | |]; subst. inversion Hq as [|q1 p1 k1 e1 S2 V2 Q2|p1 k1 e1 v S2 V2 N Q2|]; subst.
  - pose proof (vsem_det _ _ _ _ _ _ _ V1 V2). discriminate.
  - pose proof (vsem_det _ _ _ _ _ _ _ V1 V2) as X. injection X as <- <-. eapply N. reflexivity.
Qed.

End Text.
