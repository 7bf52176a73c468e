(** The interpreter computes the meaning. *)

From Coq Require Import String NArith List Bool Arith Lia.
From Verif Require Import Base PegSyntax Ast AstSorts Logic LogicWords LogicSpec ScopeSpec Interp OrderFacts SeqFacts TermFacts ScopeFacts ScopeInterp ScopeRun Meaning MeaningFacts MeaningNames.
Import ListNotations.
Open Scope string_scope.
Open Scope list_scope.
Open Scope nat_scope.

(** ** States *)

Definition same_vars (h : heap) : list (string * nat) -> list (string * ref) -> Prop := Forall2 (fun v b => fst v = fst b /\ num h (snd b) (snd v)).
Record ctx (g : context) (s : st) : Prop := Ctx {
  k_vars : same_vars (s_heap s) (c_vars g) (s_vars s);
  k_hoa : optional (num (s_heap s)) (hd_error (s_hoa s)) (c_hoa g) }.
Record said (t : state) (s : st) : Prop := Said {
  d_next : t_next t = s_n s;
  d_nums : nums (s_heap s) (s_n s);
  d_lift : Forall2 (fun e b => fst e = fst b /\ num (s_heap s) (snd b) (snd e)) (t_lifted t) (s_lifted s);
  d_outer : Forall2 (fun o b => exists rs, nth_error (s_heap s) b = Some (CBinding QThe (fst o) false (Some rs) None) /\ rform (s_heap s) rs (snd o)) (t_outer t) (s_the s);
  d_lok : lok t }.

Lemma forall2_weak {A B} (R S : A -> B -> Prop) l m : Forall2 R l m -> (forall x y, R x y -> S x y) -> Forall2 S l m.
Proof. intros H I. induction H; constructor; auto. Qed.
Lemma optional_weak {A B} (R S : A -> B -> Prop) l m : optional R l m -> (forall x y, R x y -> S x y) -> optional S l m.
Proof. intros H I. destruct H; constructor; auto. Qed.

Lemma ctx_grows g s s' : ctx g s -> grows (s_heap s) (s_heap s') -> s_vars s' = s_vars s -> s_hoa s' = s_hoa s -> ctx g s'.
Proof.
  intros [V H] G Ev Eh. split; rewrite ?Ev, ?Eh.
  - eapply forall2_weak; [exact V|]. intros x y [A B]. split; [exact A|eapply num_grows; eassumption].
  - eapply optional_weak; [exact H|]. intros. eapply num_grows; eassumption.
Qed.
Lemma ctx_ext g s s' : ctx g s -> ext s s' -> s_vars s' = s_vars s -> ctx g s'.
Proof. intros C X V. eapply ctx_grows; [exact C|apply ext_grows, X|exact V|exact (e_hoa _ _ _ _ _ _ _ _ X)]. Qed.
Lemma ctx_put g s b q n f rs sc q' f' rs' sc' : ctx g s -> nth_error (s_heap s) b = Some (CBinding q n f rs sc) -> ctx g (put s b (CBinding q' n f' rs' sc')).
Proof.
  intros [V H] B. split; cbn [put with_heap s_heap s_vars s_hoa].
  - eapply forall2_weak; [exact V|]. intros x y [A C]. split; [exact A|]. apply (num_put _ _ _ _ _ _ _ _ _ _ _ B), C.
  - eapply optional_weak; [exact H|]. intros x y C. apply (num_put _ _ _ _ _ _ _ _ _ _ _ B), C.
Qed.

Lemma said_move t s s' i : said t s -> grows (s_heap s) (s_heap s') -> nums (s_heap s') (s_n s') -> i = s_n s' -> s_lifted s' = s_lifted s -> s_the s' = s_the s -> said (with_next t i) s'.
Proof.
  intros [N Nu L O K] G Nu' -> El Eo. split; cbn [with_next t_next t_lifted t_outer]; [reflexivity|exact Nu'| | |exact K].
  - rewrite El. eapply forall2_weak; [exact L|]. intros x y [A B]. split; [exact A|eapply num_grows; eassumption].
  - rewrite Eo. eapply forall2_weak; [exact O|]. intros x y (rs & A & B). exists rs. split; [apply G, A|eapply form_grows; eassumption].
Qed.
Lemma next_same t s : said t s -> with_next t (s_n s) = t.
Proof. intros S. rewrite <- (d_next _ _ S). destruct t; reflexivity. Qed.
Definition plain_cell (c : cell) : bool := match c with CBinding _ _ _ _ _ | CVariable _ None _ => false | _ => true end.
Lemma said_plain t s c z s' : alloc c s = Ok (z, s') -> plain_cell c = true -> said t s -> said t s' /\ nth_error (s_heap s') z = Some c /\ grows (s_heap s) (s_heap s').
Proof.
  intros A P S. apply alloc_ok in A. destruct A as [-> ->]. split; [|split; [apply nth_snoc|apply grows_snoc]].
  rewrite <- (next_same _ _ S). apply said_move with (s := s); try reflexivity; [exact S|apply grows_snoc|]. apply nums_plain; [exact (d_nums _ _ S)| |]; intros; intros ->; discriminate.
Qed.
Lemma said_free t s x s1 z s' : new_var s = Ok (x, s1) -> alloc (CVariable x None false) s1 = Ok (z, s') -> said t s ->
  said (with_next t (S (t_next t))) s' /\ rthing (s_heap s') z (Free (t_next t)) /\ grows (s_heap s) (s_heap s').
Proof.
  intros N A S. injection N as <- <-. apply alloc_ok in A. destruct A as [-> ->]. cbn [s_heap with_heap] in *. rewrite (d_next _ _ S). split; [|split; [constructor 2; apply nth_snoc|apply grows_snoc]].
  apply said_move with (s := s); try reflexivity; [exact S|apply grows_snoc|]. apply nums_var, (d_nums _ _ S).
Qed.
Lemma said_binding t s q fo b a s' : new_binding q fo s = Ok (b, a, s') -> said t s ->
  said (with_next t (S (t_next t))) s' /\ nth_error (s_heap s') b = Some (CBinding q (t_next t) false None None) /\ rthing (s_heap s') a (Bound (t_next t) fo) /\ grows (s_heap s) (s_heap s').
Proof.
  unfold new_binding. intros H S. minv H. injection E as <- <-. minv H. apply alloc_ok in E. destruct E as [-> ->]. minv H. apply alloc_ok in E. destruct E as [-> ->].
  minv H. injection H as <- <-. subst. cbn [s_heap with_heap] in *. rewrite (d_next _ _ S).
  assert (G1 := grows_snoc (s_heap s) (CBinding q (s_n s) false None None)). assert (G2 := grows_snoc (s_heap s ++ [CBinding q (s_n s) false None None]) (CVariable (s_n s) (Some (length (s_heap s))) fo)).
  assert (B : nth_error ((s_heap s ++ [CBinding q (s_n s) false None None]) ++ [CVariable (s_n s) (Some (length (s_heap s))) fo]) (length (s_heap s)) = Some (CBinding q (s_n s) false None None)) by apply G2, nth_snoc.
  split; [|split; [exact B|split; [|eapply grows_trans; eassumption]]].
  - apply said_move with (s := s); try reflexivity; [exact S|eapply grows_trans; eassumption|]. apply nums_plain; [apply nums_binding, (d_nums _ _ S)| |]; intros; discriminate.
  - econstructor 1; [apply nth_snoc|]. eexists _, _, _, _. exact B.
Qed.
Lemma said_put t s b q n f rs sc q' f' rs' sc' : said t s -> nth_error (s_heap s) b = Some (CBinding q n f rs sc) -> orphan (s_heap s) b -> ~ In b (s_the s) ->
  said t (put s b (CBinding q' n f' rs' sc')).
Proof.
  intros [N Nu L O K] B Or T. split; cbn [put with_heap s_heap s_n s_lifted s_the]; [exact N|eapply nums_put; eassumption| | |exact K].
  - eapply forall2_weak; [exact L|]. intros x y [A C]. split; [exact A|]. apply (num_put _ _ _ _ _ _ _ _ _ _ _ B), C.
  - assert (D : forall y, In y (s_the s) -> y <> b) by (intros y I ->; contradiction). clear - O D B Or. induction O as [|o y l m (r & E & F) O IH]; constructor; [|apply IH; intros z I; apply D; right; exact I].
    exists r. split.
    + rewrite set_nth_other by (apply not_eq_sym, D; left; reflexivity). exact E.
    + eapply form_put; [exact B|exact Or|exact F|]. intros ->. apply (Or y). eexists. split; [exact E|left; reflexivity].
Qed.

(** ** Predicates *)

Definition Any : ref -> Prop := fun _ => True.
Lemma any_env s : env s Any. Proof. intros ? ? _. exact I. Qed.
Lemma any_hoa s : hoa_in s Any. Proof. intros ? _. exact I. Qed.
Lemma any_args s a b : rargs (s_heap s) a b -> args_in s Any a.
Proof.
  intros H. induction H as [|[x p] y a b [A _] H IH]; intros z k J; [destruct J|]. destruct J as [J|J]; [|eapply IH, J]. injection J as <- <-. cbn in A.
  destruct A as [r n d f E _|r n E]; eexists; (split; [exact E|]); (split; [reflexivity|]); intros; left; exact I.
Qed.

Lemma serial_right_read h0 l a t : forall r q s z s', serial_right l r s = Ok (z, s') -> grows h0 (s_heap s) -> rprop h0 l a -> rpred h0 r q -> said t s ->
  rpred (s_heap s') z (serial (One a) q) /\ said t s' /\ grows (s_heap s) (s_heap s').
Proof.
  induction r as [r|c r1 IH1 r2 IH2]; intros [b|c' q1 q2] s z s' H G L R S; cbn [rpred] in R; try contradiction; cbn [serial_right] in H.
  - minv H. minv H. subst. destruct (said_plain _ _ _ _ _ E eq_refl S) as (S1 & N & G1). split; [|auto]. cbn [rpred serial].
    econstructor 3; [exact N| |]; (eapply prop_grows; [|eassumption]; eapply grows_trans; eassumption).
  - destruct R as (-> & R1 & R2). minv H. minv H. minv H. subst. destruct (IH1 _ _ _ _ E G L R1 S) as (P1' & S1 & G1).
    destruct (IH2 _ _ _ _ E0 (grows_trans _ _ _ G G1) L R2 S1) as (P2' & S2 & G2). split; [|split; [exact S2|eapply grows_trans; eassumption]].
    cbn [rpred serial]. split; [reflexivity|]. split; [eapply pred_grows; eassumption|exact P2'].
Qed.
Lemma serial_left_read h0 r q t : forall l p s z s', serial_left l r s = Ok (z, s') -> grows h0 (s_heap s) -> rpred h0 l p -> rpred h0 r q -> said t s ->
  rpred (s_heap s') z (serial p q) /\ said t s' /\ grows (s_heap s) (s_heap s').
Proof.
  induction l as [l|c l1 IH1 l2 IH2]; intros [a|c' p1 p2] s z s' H G L R S; cbn [rpred] in L; try contradiction; cbn [serial_left] in H.
  - eapply serial_right_read; eassumption.
  - destruct L as (-> & L1 & L2). minv H. minv H. minv H. subst. destruct (IH1 _ _ _ _ E G L1 R S) as (P1' & S1 & G1).
    destruct (IH2 _ _ _ _ E0 (grows_trans _ _ _ G G1) L2 R S1) as (P2' & S2 & G2). split; [|split; [exact S2|eapply grows_trans; eassumption]].
    cbn [rpred serial]. split; [reflexivity|]. split; [eapply pred_grows; eassumption|exact P2'].
Qed.
Lemma opts_grows h h' l m : grows h h' -> Forall2 (optional (rthing h)) l m -> Forall2 (optional (rthing h')) l m.
Proof. intros G H. eapply forall2_weak; [exact H|]. intros x y K. eapply optional_weak; [exact K|]. intros. eapply thing_grows; eassumption. Qed.
Lemma distribute_read h0 a o tl t : order_arguments a = Ok o -> Forall2 (optional (rthing h0)) o tl ->
  forall p P s z s', distribute_predication p a s = Ok (z, s') -> grows h0 (s_heap s) -> rpred h0 p P -> said t s ->
  rform (s_heap s') z (holds P tl) /\ said t s' /\ grows (s_heap s) (s_heap s').
Proof.
  intros Eo Ho. induction p as [r|c l IHl r IHr]; intros [b|c' P1 P2] s z s' H G R S; cbn [rpred] in R; try contradiction; cbn [distribute_predication] in H.
  - minv H. unfold lift in E. rewrite Eo in E. injection E as <- <-. destruct (said_plain _ _ _ _ _ H eq_refl S) as (S1 & N & G1). split; [|auto]. cbn [holds].
    econstructor 1; [exact N|eapply prop_grows; [|exact R]; eapply grows_trans; eassumption|eapply opts_grows; [|exact Ho]; eapply grows_trans; eassumption].
  - destruct R as (-> & R1 & R2). minv H. minv H. destruct (IHl _ _ _ _ E G R1 S) as (F1 & S1 & G1). destruct (IHr _ _ _ _ E0 (grows_trans _ _ _ G G1) R2 S1) as (F2 & S2 & G2).
    destruct (said_plain _ _ _ _ _ H eq_refl S2) as (S3 & N & G3). split; [|split; [exact S3|eapply grows_trans; [eapply grows_trans; eassumption|exact G3]]].
    cbn [holds]. econstructor 2; [exact N|eapply form_grows; [|exact F1]; eapply grows_trans; eassumption|eapply form_grows; eassumption].
Qed.
Lemma distribute_placed a ta p P t s z s' : distribute_predication p a s = Ok (z, s') -> rargs (s_heap s) a ta -> rpred (s_heap s) p P -> said t s ->
  exists tl, placed ta tl /\ rform (s_heap s') z (holds P tl) /\ said t s' /\ grows (s_heap s) (s_heap s').
Proof.
  intros H A R S. destruct (order_spec a) as (o & k & Eo & _). destruct (order_placed _ _ _ _ A Eo) as (tl & Pl & Ho). exists tl. split; [exact Pl|].
  eapply distribute_read; try eassumption. apply grows_refl.
Qed.

Lemma lookup_read v s x d s' vs : lookup_var v s = Ok (x, d, s') -> same_vars (s_heap s) vs (s_vars s) -> forall t z s'', said t s -> alloc (CVariable x d false) s' = Ok (z, s'') ->
  exists th i, looked_up vs v (t_next t) = (th, i) /\ rthing (s_heap s'') z th /\ said (with_next t i) s'' /\ grows (s_heap s) (s_heap s'').
Proof.
  unfold lookup_var, looked_up. intros H V t z s'' S A.
  assert (Fi : match find (fun b => String.eqb (fst b) v) (s_vars s), find (fun b => String.eqb (fst b) v) vs with
               | Some (_, r), Some (_, y) => num (s_heap s) r y | None, None => True | _, _ => False end).
  { clear - V. induction V as [|[a x] [b y] l m [E N] V IH]; cbn [find fst snd] in *; [exact I|]. subst b. destruct (String.eqb a v); [exact N|exact IH]. }
  destruct (find _ (s_vars s)) as [[v' r]|], (find _ vs) as [[v2 y]|]; try contradiction.
  - minv H. apply get_binding_ok in E. destruct E as [-> B]. minv H. injection H as <- <-. subst s'.
    destruct (said_plain _ _ _ _ _ A eq_refl S) as (S1 & N & G). exists (Bound y false), (t_next t). split; [reflexivity|].
    destruct Fi as (q & f & rs & sc & B'). rewrite B in B'. injection B' as B1 B2 B3 B4 B5. split; [|split; [|exact G]].
    + rewrite <- B2 in *. econstructor 1; [exact N|]. eapply num_grows; [exact G|]. eexists _, _, _, _. exact B.
    + destruct t; exact S1.
  - minv H. minv H. injection H as <- <-. subst s'. destruct (said_free _ _ _ _ _ _ E A S) as (S1 & T & G). eauto 8.
Qed.
