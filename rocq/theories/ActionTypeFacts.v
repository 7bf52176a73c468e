(** The types of ActionTypes.v are right: every value of an expression of the grammar has
    the type inferred for it, and the only action that can panic is addTone, on texts
    with a digit 1 to 7. *)

From Coq Require Import String Ascii NArith ZArith PArith List Bool Lia FMapPositive.
From Verif Require Import Base Utf8 Utf8Facts PegSyntax Grammar Peg PegToaq PegSpec PegFacts Tone Ast Action
  ActionSpec AstInd ModFacts AstSorts ActionTypes SortFacts ActionFacts.
Import ListNotations.
Open Scope string_scope.
Open Scope list_scope.
Open Scope nat_scope.

Ltac bsplit := repeat match goal with |- (_ && _)%bool = true => apply andb_true_iff; split end.

(** ** Joins *)

Lemma union_l {A} dec (a b : list A) x : In x a -> In x (union dec a b).
Proof.
  intro H. unfold union. apply in_app_iff. destruct (in_dec dec x b) as [Hb|Hb]; [left; exact Hb|right].
  apply filter_In. split; [exact H|]. apply negb_true_iff. destruct (in_dec_b dec x b) eqn:E; [|reflexivity].
  apply in_dec_b_spec in E. contradiction.
Qed.
Lemma union_r {A} dec (a b : list A) x : In x b -> In x (union dec a b).
Proof. intro H. unfold union. apply in_app_iff. left. exact H. Qed.

Lemma okn_union_l a b n : okn a n = true -> okn (punion a b) n = true.
Proof. rewrite !okn_spec, !among_spec. intros [H1 H2]. split; [apply union_l; exact H1|exact H2]. Qed.
Lemma okn_union_r a b n : okn b n = true -> okn (punion a b) n = true.
Proof. rewrite !okn_spec, !among_spec. intros [H1 H2]. split; [apply union_r; exact H1|exact H2]. Qed.

Local Hint Resolve union_l union_r okn_union_l okn_union_r : joins.

Lemma join_ok : forall a b v, (hasty a v -> hasty (join a b) v) /\ (hasty b v -> hasty (join a b) v).
Proof.
  induction a; destruct b; intro v; cbn [join];
    (split; intro H; try exact I; try contradiction; try assumption);
    cbn [hasty] in *; try assumption;
    repeat match goal with
    | H : exists _, _ |- _ => destruct H
    | H : _ /\ _ |- _ => destruct H
    end; subst; try assumption; try solve [repeat eexists; auto with joins].
  all: try (eexists _, ""; rewrite sapp_nil_r; split; [reflexivity|]; auto with joins).
  - destruct H as [H|(x & E & H)]; [left; exact H|right; exists x; split; [exact E|]]. exact (proj1 (IHa _ _) H).
  - destruct H as [H|(x & E & H)]; [left; exact H|right; exists x; split; [exact E|]]. exact (proj2 (IHa _ _) H).
  - exists x, x0, x1, x2, x3. repeat (split; [first [assumption|reflexivity|idtac]|]); [destruct x; cbn [is_some] in *; auto with joins|auto with joins].
  - exists x, x0, x1, x2, x3. repeat (split; [first [assumption|reflexivity|idtac]|]); [destruct x; cbn [is_some] in *; auto with joins|auto with joins].
Qed.

Lemma sub_ok a b v : sub a b = true -> hasty a v -> hasty b v.
Proof.
  unfold sub. destruct (ty_eq_dec (join a b) b) as [E|]; [|discriminate]. intros _ H. rewrite <- E.
  apply (proj1 (join_ok a b v)). exact H.
Qed.

Lemma empty_set l s : is_empty_set l = true -> In s l -> s = "".
Proof. unfold is_empty_set. rewrite forallb_forall. intros H1 H2. symmetry. apply String.eqb_eq. exact (H1 _ H2). Qed.

Lemma tcat_ok a b v w : hasty a v -> hasty b w -> hasty (tcat a b) (vcat v w).
Proof.
  destruct a, b; cbn [tcat]; intros H1 H2; try exact I; try contradiction;
    repeat match goal with |- context [if is_empty_set ?l then _ else _] => destruct (is_empty_set l) eqn:? end;
    cbn [hasty] in *;
    repeat match goal with
    | H : exists _, _ |- _ => destruct H
    | H : _ /\ _ |- _ => destruct H
    end; subst; cbn [vcat];
    repeat match goal with
    | E : is_empty_set ?l = true, H : In ?s ?l |- _ => rewrite (empty_set l s E H) in *; clear H
    end; cbn [append]; rewrite ?sapp_nil_r, ?sapp_assoc; eauto.
  exists x, x0. split; [reflexivity|assumption].
Qed.

Lemma tplus_first t v : hasty t v -> hasty (tplus t) (vplus0 v).
Proof.
  destruct t; cbn [tplus]; intro H; try exact I; try contradiction;
    try (destruct (within l items) eqn:W; [|exact I]); cbn [hasty] in *;
    repeat match goal with
    | H : exists _, _ |- _ => destruct H
    | H : _ /\ _ |- _ => destruct H
    end; subst; cbn [vplus0]; eauto.
  - eexists _, ""; rewrite sapp_nil_r; split; [reflexivity|assumption].
  - eexists; split; [reflexivity|]. apply okn_spec. split; [reflexivity|].
    rewrite (proj1 snode_eqs). cbn [nonempty forallb andb]. rewrite (okn_within _ _ _ W H0). reflexivity.
Qed.

Lemma tplus_next t acc v : hasty (tplus t) acc -> hasty t v -> hasty (tplus t) (vplus acc v).
Proof.
  destruct t; cbn [tplus]; intros H1 H2; try exact I; try contradiction;
    try (destruct (within l items) eqn:W; [|exact I]); cbn [hasty] in *;
    repeat match goal with
    | H : exists _, _ |- _ => destruct H
    | H : _ /\ _ |- _ => destruct H
    end; subst; cbn [vplus]; rewrite ?sapp_assoc; eauto.
  apply okn_spec in H2. destruct H2 as [H0 H3]. apply among_spec in H0.
  destruct H0 as [H0|[]]. destruct x0; try discriminate H0. cbn [vplus].
  eexists; split; [reflexivity|]. apply okn_spec. split; [reflexivity|].
  rewrite (proj1 snode_eqs) in H3 |- *. apply andb_true_iff in H3. destruct H3 as [_ H3].
  rewrite forallb_app, H3. cbn [forallb]. rewrite (okn_within _ _ _ W H1). destruct d; reflexivity.
Qed.

(** ** Actions *)

Lemma mod_opt_val t v : mod_opt t = true -> hasty t v ->
  exists m, v = VOpt (option_map VNode m) /\ mod_ok m.
Proof.
  destruct t as [| | | | | | |t| | | | | | | |]; cbn [mod_opt]; try discriminate.
  intros M [->|(x & -> & H)]; [exists None; split; [reflexivity|exact I]|].
  destruct t; try discriminate; cbn [hasty] in H; [contradiction|].
  destruct H as (n & -> & H). exists (Some n). split; [reflexivity|]. exact (okn_within _ _ _ M H).
Qed.

Lemma word_opt_val t v : word_opt t = true -> hasty t v ->
  exists o, v = VOpt (option_map VWord o) /\ on_opt sword o = true.
Proof.
  destruct t as [| | | | | | |t| | | | | | | |]; cbn [word_opt]; try discriminate.
  intros M [->|(x & -> & H)]; [exists None; split; reflexivity|].
  destruct t; try discriminate; cbn [hasty] in H; [contradiction|].
  destruct H as (n & -> & H). exists (Some n). split; [reflexivity|exact H].
Qed.

Lemma node_opt_val l t v : node_opt l t = true -> hasty t v ->
  exists o, v = VOpt (option_map VNode o) /\ on_opt (okn l) o = true.
Proof.
  destruct t as [| | | | | | |t| | | | | | | |]; cbn [node_opt]; try discriminate.
  intros M [->|(x & -> & H)]; [exists None; split; reflexivity|].
  destruct t; try discriminate; cbn [hasty] in H; [contradiction|].
  destruct H as (n & -> & H). exists (Some n). split; [reflexivity|exact (okn_within _ _ _ M H)].
Qed.

Lemma wmod_ok m w : mod_ok m -> sword w = true ->
  exists w', wmod (option_map VNode m) w = Ok w' /\ sword w' = true.
Proof. intros Hm Hw. destruct m as [x|]; exact (proj2 (mod_keeps _ Hm) w Hw). Qed.

Lemma nmod_ok l m n : modable l = true -> mod_ok m -> okn l n = true ->
  exists n', nmod (option_map VNode m) n = Ok n' /\ okn l n' = true.
Proof. intros Hl Hm Hn. destruct m as [x|]; exact (keeps_among _ l n Hl (proj1 (mod_keeps _ Hm) n) Hn). Qed.

Lemma opt_word_ok o : opt_word (option_map VWord o) = Ok o.
Proof. destruct o; reflexivity. Qed.
Lemma opt_node_ok o : opt_node (option_map VNode o) = Ok o.
Proof. destruct o; reflexivity. Qed.

Lemma okn_one s n : okn [s] n = true -> shape_of n = s.
Proof. rewrite okn_spec, among_spec. intros [[H|[]] _]. symmetry. exact H. Qed.

Lemma end_predication_ok m n o : mod_ok m -> okn [SPredication] n = true -> on_opt sword o = true ->
  exists n', end_predication n (option_map VNode m) (option_map VWord o) = Ok n' /\ okn [SPredication] n' = true.
Proof.
  intros Hm Hn Ho. unfold end_predication.
  destruct (nmod_ok [SPredication] m n eq_refl Hm Hn) as (n' & -> & H). cbn [bind]. rewrite opt_word_ok. cbn [bind].
  pose proof (okn_one _ _ H) as E. destruct n'; try discriminate E.
  eexists; split; [reflexivity|]. apply okn_spec in H. destruct H as [_ H]. apply okn_spec. split; [reflexivity|].
  destruct snode_eqs as (_ & _ & _ & _ & E5 & _). rewrite E5 in *.
  repeat (apply andb_true_iff in H; destruct H as [H ?]). repeat (apply andb_true_iff; split); assumption.
Qed.

Lemma all_some_In {A B} (f : A -> option B) l m : all_some f l = Some m ->
  forall x, In x l -> exists y, f x = Some y /\ In y m.
Proof.
  revert m. induction l as [|a l IH]; intros m H x Hx; [contradiction|]. cbn [all_some] in H.
  destruct (f a) as [y|] eqn:E; [|discriminate]. destruct (all_some f l) as [r|]; [|discriminate].
  injection H as <-. destruct Hx as [<-|Hx]; [exists y; split; [exact E|left; reflexivity]|].
  destruct (IH r eq_refl x Hx) as (z & Ez & Hz). exists z. split; [exact Ez|right; exact Hz].
Qed.

Lemma stake_app a b : stake (String.length a) (a ++ b) = a.
Proof. induction a; cbn; [destruct b; reflexivity|]. f_equal. exact IHa. Qed.

Lemma one_rune_decode h s : one_rune h = true ->
  decode_rune (h ++ s) = (fst (decode_rune h), String.length h).
Proof.
  unfold one_rune. intro H. apply String.eqb_eq in H. rewrite H at 1 3.
  rewrite decode_encode_app; [|apply decode_valid]. reflexivity.
Qed.

Lemma can_add_ok ds ts h s t : can_add ds ts = true -> In h ds -> In t ts -> exists r, add_tone (h ++ s) t = Ok r.
Proof.
  unfold can_add. rewrite forallb_forall. intros H Hh Ht. specialize (H h Hh).
  apply andb_true_iff in H. destruct H as [H1 H2]. rewrite forallb_forall in H2. specialize (H2 t Ht).
  unfold add_tone. rewrite (one_rune_decode h s H1). cbn [snd]. rewrite stake_app.
  unfold diacritic_opt in H2. destruct (diacritic_of (fst (decode_rune t)) h); try discriminate.
  cbn [bind]. eauto.
Qed.

Lemma add_tone_res d t : match add_tone d t with Ok _ => True | Panic q => q = PRuntime | NoFuel => False end.
Proof.
  unfold add_tone, diacritic_of. destruct (lookup _ diacritic) as [row|]; [|reflexivity].
  destruct (slookup _ row) as [[|f l]|]; cbn; auto; reflexivity.
Qed.

Definition seen (n : node) : Prop := True.

Definition outcome_ok (nd : bool) (t : ty) (x : res val) : Prop :=
  match x with
  | Ok v => hasty t v
  | Panic q => nd = false /\ q = PRuntime
  | NoFuel => False
  end.

Lemma act_ty_ok nd a ts t vs i j : act_ty nd a ts = Some t -> Forall2 hasty ts vs ->
  outcome_ok nd t (run_act a i j vs).
Proof.
  unfold act_ty. intros H F. destruct (existsb is_bot ts) eqn:B.
  { exfalso. apply existsb_exists in B. destruct B as (u & Hu & Hb). destruct u; try discriminate Hb.
    clear H. induction F; [contradiction|]. destruct Hu as [->|Hu]; [contradiction|exact (IHF Hu)]. }
  clear B.
  destruct snode_eqs as (E1 & E2 & E3 & E4 & E5 & E6 & E7 & E8 & E9 & E10 & E11 & E12 & E13 & E14 & E15 & E16 & E17 & E18 & E19 & E20 & E21 & E22 & E23 & E24 & E25 & E26 & E27 & E28).
  destruct a;
    repeat match type of H with
    | match ?x with _ => _ end = Some _ => destruct x eqn:?; try discriminate H
    end;
    repeat match goal with
    | F : Forall2 _ _ _ |- _ => inversion F; clear F; subst
    end;
    unfold guard in H;
    repeat match type of H with
    | (if ?b then _ else _) = Some _ => destruct b eqn:?; [|discriminate H]
    end;
    try injection H as <-;
    repeat match goal with B : (_ && _)%bool = true |- _ => apply andb_true_iff in B; destruct B as [? ?] end.
  all: repeat match goal with
    | M : mod_opt ?t = true, H : hasty ?t ?v |- _ =>
        let m := fresh "m" in destruct (mod_opt_val t v M H) as (m & -> & ?); clear M H
    | M : word_opt ?t = true, H : hasty ?t ?v |- _ =>
        let o := fresh "o" in destruct (word_opt_val t v M H) as (o & -> & ?); clear M H
    | M : node_opt ?l ?t = true, H : hasty ?t ?v |- _ =>
        let o := fresh "o" in destruct (node_opt_val l t v M H) as (o & -> & ?); clear M H
    | H : hasty TWord ?v |- _ => let w := fresh "w" in destruct H as (w & -> & ?)
    | H : hasty (TNode _) ?v |- _ => let n := fresh "n" in destruct H as (n & -> & ?)
    | H : hasty TConn ?v |- _ => destruct H as (? & ? & -> & ? & ?)
    | H : hasty TMo ?v |- _ => destruct H as (? & ? & -> & ? & ?)
    | H : hasty TParen ?v |- _ => destruct H as (? & ? & -> & ? & ?)
    | H : hasty TLU ?v |- _ => destruct H as (? & ? & -> & ? & ?)
    | H : hasty (TBar _) ?v |- _ => destruct H as (? & ? & -> & ? & ?)
    | H : hasty (TForeBar _) ?v |- _ => destruct H as (? & ? & -> & ? & ?)
    | H : hasty (TFore _ _) ?v |- _ => destruct H as (? & ? & ? & -> & ? & ? & ?)
    | H : hasty (TRaw _ _ _) ?v |- _ => destruct H as (? & ? & ? & ? & ? & -> & ? & ? & ? & ? & ? & ?)
    | H : hasty TStr ?v |- _ => destruct H as (? & ->)
    | H : hasty (TSet _) ?v |- _ => destruct H as (? & -> & ?)
    | H : hasty (THead _) ?v |- _ => destruct H as (? & ? & -> & ?)
    end.
  all: repeat match goal with H : okn (if is_some ?x then _ else _) _ = true |- _ => destruct x; cbn [is_some] in H end.
  all: repeat match goal with
    | W : within ?l ?m = true, O : okn ?l ?n = true |- _ =>
        match goal with
        | _ : okn m n = true |- _ => fail 1
        | _ => pose proof (okn_within l m n W O)
        end
    end.
  all: repeat match goal with
    | H : okn [?s] ?n = true |- _ => is_var n; let E := fresh in pose proof (okn_one s n H) as E; destruct n; try discriminate E; clear E
    | H : on_opt (okn [SDiscourse]) ?o = true |- _ => is_var o; destruct o; cbn [on_opt] in H
    | H : on_opt (okn [STerms]) ?o = true |- _ => is_var o; destruct o; cbn [on_opt] in H
    | H : on_opt (okn [SPrenex]) ?o = true |- _ => is_var o; destruct o; cbn [on_opt] in H
    end.
  all: repeat match goal with
    | H : okn [_] ?n = true |- _ =>
        lazymatch goal with
        | _ : seen n |- _ => fail
        | _ => idtac
        end;
        pose proof (I : seen n);
        let S := fresh "S" in pose proof (proj2 (proj1 (okn_spec _ _) H)) as S;
        rewrite ?E1, ?E2, ?E3, ?E4, ?E5, ?E6, ?E7, ?E8, ?E9, ?E10, ?E11, ?E12, ?E13, ?E14, ?E15, ?E16, ?E17, ?E18, ?E19, ?E20, ?E21, ?E22, ?E23, ?E24, ?E25, ?E26, ?E27, ?E28 in S
    end.
  all: repeat match goal with B : (_ && _)%bool = true |- _ => apply andb_true_iff in B; destruct B as [? ?] end.
  all: cbn [run_act option_map].
  all: repeat first [
      rewrite opt_word_ok; cbn [bind]
    | rewrite opt_node_ok; cbn [bind]
    | match goal with
      | M : mod_ok ?m, W : sword ?w = true |- context [wmod (option_map VNode ?m) ?w] =>
          let w' := fresh "w" in destruct (wmod_ok m w M W) as (w' & -> & ?); cbn [bind]
      | M : mod_ok ?m, W : okn [SPredication] ?n = true, O : on_opt sword ?o = true
        |- context [end_predication ?n (option_map VNode ?m) (option_map VWord ?o)] =>
          let w' := fresh "n" in destruct (end_predication_ok m n o M W O) as (w' & -> & ?); cbn [bind]
      | M : mod_ok ?m, W : okn ?l ?n = true |- context [nmod (option_map VNode ?m) ?n] =>
          let w' := fresh "n" in
          destruct (nmod_ok l m n ltac:(first [assumption | reflexivity]) M W) as (w' & -> & ?); cbn [bind]
      end ].
  all: repeat match goal with
    | H : okn [?s] ?n = true |- _ => is_var n; let E := fresh in pose proof (okn_one s n H) as E; destruct n; try discriminate E; clear E
    end.
  all: repeat match goal with
    | H : okn [_] ?n = true |- _ =>
        lazymatch goal with
        | _ : seen n |- _ => fail
        | _ => idtac
        end;
        pose proof (I : seen n);
        let S := fresh "S" in pose proof (proj2 (proj1 (okn_spec _ _) H)) as S;
        rewrite ?E1, ?E2, ?E3, ?E4, ?E5, ?E6, ?E7, ?E8, ?E9, ?E10, ?E11, ?E12, ?E13, ?E14, ?E15, ?E16, ?E17, ?E18, ?E19, ?E20, ?E21, ?E22, ?E23, ?E24, ?E25, ?E26, ?E27, ?E28 in S
    end.
  all: repeat match goal with B : (_ && _)%bool = true |- _ => apply andb_true_iff in B; destruct B as [? ?] end.
  all: cbn [outcome_ok hasty].
  all: try (repeat eexists; try assumption; fail).
  all: try (eexists; split; [reflexivity|]; apply okn_spec; split; [apply among_spec; first [left; reflexivity | apply union_l; left; reflexivity]|];
    rewrite ?E1, ?E2, ?E3, ?E4, ?E5, ?E6, ?E7, ?E8, ?E9, ?E10, ?E11, ?E12, ?E13, ?E14, ?E15, ?E16, ?E17, ?E18, ?E19, ?E20, ?E21, ?E22, ?E23, ?E24, ?E25, ?E26, ?E27, ?E28; cbn [on_opt forallb nonempty prepend app]; rewrite ?forallb_app; cbn [forallb];
    repeat match goal with |- (_ && _)%bool = true => apply andb_true_iff; split end;
    first [assumption | reflexivity]).
  (* AText *)
  1, 2: eexists; split; [reflexivity|]; apply okn_spec; split; [reflexivity|]; rewrite E28; apply andb_true_iff; split;
    [destruct m; first [reflexivity | assumption] | first [reflexivity | assumption]].
  (* APrenexStmt *)
  - eexists; split; [reflexivity|]. apply okn_union_r. assumption.
  (* ALinked *)
  - destruct o; cbn [option_map on_opt] in *.
    + eexists; split; [reflexivity|]. apply okn_union_l. apply okn_spec. split; [reflexivity|].
      rewrite E12. apply andb_true_iff. split; assumption.
    + eexists; split; [reflexivity|]. apply okn_union_r. assumption.
  (* AArgRel *)
  - destruct o; cbn [on_opt] in *; (eexists; split; [reflexivity|]; apply okn_spec; split; [reflexivity|]);
      rewrite E14; bsplit; assumption.
  (* AMoEnd, AEndParen *)
  - destruct (nmod_ok [SDiscourse] m (NDiscourse x0) eq_refl ltac:(assumption) ltac:(apply okn_spec; split; [reflexivity|assumption])) as (n' & -> & Hn').
    cbn [bind]. pose proof (okn_one _ _ Hn') as E. destruct n'; try discriminate E.
    apply okn_spec in Hn'. destruct Hn' as [_ Hn']. rewrite E1 in Hn'. apply andb_true_iff in Hn'. destruct Hn' as [? ?].
    eexists; split; [reflexivity|]; apply okn_spec; split; [reflexivity|].
    rewrite E11. repeat (apply andb_true_iff; split); assumption.
  - destruct (nmod_ok [SDiscourse] m (NDiscourse x0) eq_refl ltac:(assumption) ltac:(apply okn_spec; split; [reflexivity|assumption])) as (n' & -> & Hn').
    cbn [bind]. pose proof (okn_one _ _ Hn') as E. destruct n'; try discriminate E.
    apply okn_spec in Hn'. destruct Hn' as [_ Hn']. rewrite E1 in Hn'. apply andb_true_iff in Hn'. destruct Hn' as [? ?].
    eexists; split; [reflexivity|]; apply okn_spec; split; [reflexivity|].
    rewrite E19. repeat (apply andb_true_iff; split); assumption.
  (* AWordSpace *)
  - destruct (wmod_ok m (Wd x i j None) ltac:(assumption) eq_refl) as (w' & -> & Hw). eexists; split; [reflexivity|exact Hw].
  - destruct (wmod_ok m (Wd x i j None) ltac:(assumption) eq_refl) as (w' & -> & Hw). eexists; split; [reflexivity|exact Hw].
  - destruct (wmod_ok m (Wd (x ++ x0) i j None) ltac:(assumption) eq_refl) as (w' & -> & Hw). eexists; split; [reflexivity|exact Hw].
  (* AEmpty, ADotless *)
  - eexists; split; [reflexivity|left; reflexivity].
  - eexists; split; [reflexivity|]. apply (in_map (fun s0 : string => if (s0 =? "i")%string then "ı" else s0)). assumption.
  (* ADiacritic *)
  - match goal with A : all_some _ ?l = Some _, Hx : In x ?l |- _ =>
      destruct (all_some_In _ _ _ A x Hx) as (y & Ey & Hy) end.
    unfold diacritic_opt in Ey. destruct (diacritic_of t0 x); try discriminate Ey. injection Ey as ->.
    cbn. eauto.
  (* AAddTone *)
  - destruct nd; cbn [negb orb] in *.
    + match goal with A : can_add _ _ = true, H1 : In x0 _, H2 : In x _ |- _ =>
        destruct (can_add_ok _ _ x0 "" x A H1 H2) as (r & Er) end.
      rewrite sapp_nil_r in Er. rewrite Er. cbn. eauto.
    + pose proof (add_tone_res x0 x) as R. destruct (add_tone x0 x); cbn; eauto.
  - destruct nd; cbn [negb orb] in *.
    + match goal with A : can_add _ _ = true, H1 : In x0 _, H2 : In x _ |- _ =>
        destruct (can_add_ok _ _ x0 x1 x A H1 H2) as (r & Er) end.
      rewrite Er. cbn. eauto.
    + pose proof (add_tone_res (x0 ++ x1) x) as R. destruct (add_tone (x0 ++ x1) x); cbn; eauto.
Qed.

(** ** Expressions *)

Lemma tget_ok te en l t : hasenv te en -> tget l te = Some t -> exists v, get_label l en = Some v /\ hasty t v.
Proof.
  intro F. induction F as [|[l1 t1] [l2 v2] te en [E H] F IH]; cbn [tget get_label]; [discriminate|].
  cbn [fst snd] in E, H. subst l2. destruct (Nat.eqb l l1).
  - intro X. injection X as <-. eauto.
  - exact IH.
Qed.

Lemma tgets_ok te en ls ts : hasenv te en -> all_some (fun l => tget l te) ls = Some ts ->
  exists vs, get_labels ls en = Some vs /\ Forall2 hasty ts vs.
Proof.
  intro F. revert ts. induction ls as [|l ls IH]; intros ts H; cbn [all_some get_labels] in *.
  - injection H as <-. exists []. split; [reflexivity|constructor].
  - destruct (tget l te) as [t|] eqn:E; [|discriminate]. destruct (all_some _ ls) as [r|]; [|discriminate].
    injection H as <-. destruct (tget_ok _ _ _ _ F E) as (v & -> & Hv). destruct (IH r eq_refl) as (vs & -> & Hvs).
    exists (v :: vs). split; [reflexivity|constructor; assumption].
Qed.

Section Sound.

Variable is_punct : N -> bool.
Variable text : string.
Variable nd : bool.
Variable m : tmap.
Hypothesis Hfits : fits nd m = true.
Hypothesis Hnd : nd = true -> forall pos, digit17 (fst (decode_rune (sdrop pos text))) = false.

Notation vsem := (vsem toaq is_punct text).
Notation vstar := (vstar toaq is_punct text).
Notation inf := (infer nd (rt_of m)).

Lemma rule_fits r : exists t te, inf (r_body (toaq r)) = Some (t, te) /\ (sub t (rt_of m r) = true \/ t = TSet []).
Proof.
  unfold toaq. destruct (PositiveMap.find r rule_map) as [ru|] eqn:E.
  - assert (H := Hfits). unfold fits in H. rewrite forallb_forall in H.
    specialize (H (r, ru) (PositiveMap.elements_correct _ _ E)). cbn [fst snd] in H.
    destruct (inf (r_body ru)) as [[t te]|]; [|discriminate]. eauto.
  - cbn. eauto.
Qed.

Definition good_out (t : ty) (te : tenv) (o : aout (val * env)) : Prop :=
  match o with
  | AFail => True
  | APanic q => nd = false /\ q = PRuntime
  | AOk _ (v, en) => hasty t v /\ hasenv te en
  end.

Lemma stuck_ok t te t' te' o : stuck o = true -> good_out t te o -> good_out t' te' o.
Proof. destruct o; cbn; try discriminate; auto. Qed.

Lemma class_val rs pos p k err : @sem toaq is_punct text (EClass rs) pos (Some (p, k)) err ->
  forallb (fun r => negb (N.eqb r rune_error)) rs = true ->
  hasty (TSet (map encode_rune (filter (fun r => negb (nd && digit17 r)) rs))) (VStr (slice text pos p)).
Proof.
  intros S F. inversion S; subst. rewrite forallb_forall in F.
  match goal with H : In ?x rs, D : decode_rune _ = _ |- _ => rename H into Hr; rename D into D0; rename x into r end.
  assert (Hne : r <> rune_error) by (intro; subst; specialize (F _ Hr); discriminate F).
  eexists; split; [reflexivity|]. apply in_map_iff. exists r. split.
  - assert (NE : sdrop pos text <> "") by (intro Z; rewrite Z in D0; cbn in D0; congruence).
    assert (I := decode_inv (sdrop pos text) NE). rewrite D0 in I. cbn [fst snd] in I. specialize (I Hne).
    unfold slice. replace (pos + w - pos) with w by lia.
    assert (V := decode_valid (sdrop pos text)). rewrite D0 in V. cbn [fst] in V.
    assert (W := decode_encode_app r (sdrop w (sdrop pos text)) V). rewrite <- I, D0 in W.
    injection W as W. rewrite I. rewrite W. rewrite stake_app. reflexivity.
  - apply filter_In. split; [exact Hr|]. destruct nd; [|reflexivity].
    specialize (Hnd eq_refl pos). rewrite D0 in Hnd. cbn [fst] in Hnd. rewrite Hnd. reflexivity.
Qed.

Lemma hasenv_app a b c d : hasenv a c -> hasenv b d -> hasenv (a ++ b) (c ++ d).
Proof. apply Forall2_app. Qed.

Lemma typed :
  (forall e pos o, vsem e pos o -> forall t te, inf e = Some (t, te) -> good_out t te o) /\
  (forall e pos v o, vstar e pos v o -> forall t te, inf e = Some (t, te) -> hasty (tplus t) v -> good_out (tplus t) [] o).
Proof.
  apply vsem_star_ind; intros; cbn [infer] in *;
    repeat match goal with
    | H : match inf ?e with _ => _ end = Some _ |- _ =>
        let E := fresh "E" in destruct (inf e) as [[? ?]|] eqn:E; [|discriminate H]
    | IH : forall t te, Some ?x = Some (t, te) -> _ |- _ => specialize (IH _ _ eq_refl)
    end.
  all: repeat match goal with H : Some (_, _) = Some (_, _) |- _ => injection H as <- <- end; try exact I;
    try (match goal with H : good_out _ _ ?o, K : stuck ?o = true |- good_out _ _ ?o => exact (stuck_ok _ _ _ _ o K H) end).
  - (* VTerm *)
    destruct e; try discriminate e0; cbn [infer] in H.
    + injection H as <- <-. cbn [good_out]. split; [|constructor]. inversion s; subst.
      eexists; split; [reflexivity|]. unfold slice. replace (pos + String.length s0 - pos) with (String.length s0) by lia.
      match goal with D : sdrop pos text = _ |- _ => rewrite D end. rewrite stake_app. left; reflexivity.
    + destruct (forallb (fun r => negb (N.eqb r rune_error)) rs) eqn:F; injection H as <- <-.
      * split; [|constructor]. exact (class_val _ _ _ _ _ s F).
      * split; [|constructor]. eexists; reflexivity.
    + injection H as <- <-. split; [|constructor]. eexists; reflexivity.
    + injection H as <- <-. split; [|constructor]. eexists; reflexivity.
  - (* VCall *)
    destruct (rule_fits r) as (t & te & E & Hs). specialize (H _ _ E). destruct H as [H _]. split; [|constructor].
    destruct Hs as [Hs|Hs]; [exact (sub_ok _ _ _ Hs H)|]. subst t. destruct H as (? & ? & []).
  - (* VCallP *)
    destruct (rule_fits r) as (t & te & E & Hs). exact (H _ _ E).
  - (* VSeq *)
    destruct H as [H1 H2]. destruct H0 as [H3 H4]. split; [apply tcat_ok; assumption|apply hasenv_app; assumption].
  - (* VChoice1 *)
    destruct t1; [|discriminate]. destruct (inf b) as [[t2 [|]]|]; try discriminate. injection H0 as <- <-.
    destruct o as [|q|p [v9 en]]; [congruence|exact H|]. destruct H as [H1 H2]. split; [|exact H2].
    exact (proj1 (join_ok _ _ _) H1).
  - (* VChoice2 *)
    destruct t1; [|discriminate]. destruct (inf b) as [[t2 [|]]|] eqn:E2; try discriminate. injection H1 as <- <-.
    specialize (H0 _ _ eq_refl).
    destruct o as [|q|p [v9 en]]; [exact I|exact H0|]. destruct H0 as [H1 H2]. split; [|exact H2].
    exact (proj2 (join_ok _ _ _) H1).
  - (* VPlus *)
    destruct H as [H1 H2]. apply H0. apply tplus_first. exact H1.
  - (* VOptS *)
    destruct H as [H1 H2]. split; [|constructor]. right. exists v. split; [reflexivity|exact H1].
  - split; [|constructor]. left. reflexivity.
  - exact H.
  - split; [|constructor]. exists "". split; [reflexivity|left; reflexivity].
  - split; [|constructor]. exists "". split; [reflexivity|left; reflexivity].
  - exact H.
  - (* VSub *) exact (H _ _ H0).
  - (* VLabel *)
    destruct H as [H1 H2]. split; [exact H1|]. constructor; [|constructor]. split; [reflexivity|exact H1].
  - (* VAct *)
    destruct H as [H1 H2]. destruct (all_some _ args) as [ts|] eqn:A; [|discriminate].
    destruct (act_ty nd a ts) as [t2|] eqn:T; [|discriminate]. injection H0 as <- <-.
    destruct (tgets_ok _ _ _ _ H2 A) as (vs & G & Fv). split; [|constructor].
    unfold run_action in e0. rewrite G in e0. pose proof (act_ty_ok nd a ts t2 vs pos p T Fv) as R.
    rewrite e0 in R. exact R.
  - (* VActP *)
    destruct H as [H1 H2]. destruct (all_some _ args) as [ts|] eqn:A; [|discriminate].
    destruct (act_ty nd a ts) as [t2|] eqn:T; [|discriminate]. injection H0 as <- <-.
    destruct (tgets_ok _ _ _ _ H2 A) as (vs & G & Fv).
    unfold run_action in e0. rewrite G in e0. pose proof (act_ty_ok nd a ts t2 vs pos p T Fv) as R.
    rewrite e0 in R. exact R.
  - (* VStarEnd *) split; [assumption|constructor].
  - (* VStarP *) exact (H _ _ H0).
  - (* VStarStep *)
    destruct (H _ _ H1) as [H3 H4]. apply (H0 _ _ H1). apply tplus_next; assumption.
Qed.

End Sound.
