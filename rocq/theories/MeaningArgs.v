(** The interpreter computes the meaning: arguments and the terms of a prenex. *)

From Coq Require Import String NArith List Bool Arith Lia.
From Verif Require Import Base PegSyntax Ast AstSorts Logic LogicWords LogicSpec ScopeSpec Interp OrderFacts SeqFacts TermFacts ScopeFacts ScopeInterp ScopeRun Meaning MeaningFacts MeaningNames MeaningRun MeaningStep MeaningBody.
Import ListNotations.
Open Scope string_scope.
Open Scope list_scope.
Open Scope nat_scope.

Lemma thing_atom h s r t : rthing h r t -> atom h (The s Any) r.
Proof. intros A. destruct A as [r n d f E _|r n E]; eexists; (split; [exact E|]); (split; [reflexivity|]); intros; left; exact I. Qed.
Lemma made_or s s' b x : made s s' Any x -> made s s' (Or Any (eq b)) x.
Proof. intros M. eapply made_weak; [exact M|]. intros d _. left. left. exact I. Qed.
Lemma not_open h b q n f rs r F : nth_error h b = Some (CBinding q n f rs None) -> rform h r F -> r <> b.
Proof. intros B R ->. destruct R; congruence. Qed.

(** A new binding gets its restriction, its quantifier, its scope or its focus. *)
Lemma put_read s0 s b q n f rs q' f' rs' sc' t : made s0 s Any b -> nth_error (s_heap s) b = Some (CBinding q n f rs None) -> said t s ->
  let s' := put s b (CBinding q' n f' rs' sc') in
  said t s' /\ (forall r F, rform (s_heap s) r F -> rform (s_heap s') r F) /\ (forall r x, rthing (s_heap s) r x -> rthing (s_heap s') r x) /\
  nth_error (s_heap s') b = Some (CBinding q' n f' rs' sc').
Proof.
  intros M B S s'. split; [eapply said_put; [exact S|exact B|exact (m_orphan _ _ _ _ M)|exact (m_the _ _ _ _ M)]|]. split; [|split].
  - intros r F R. eapply form_put; [exact B|exact (m_orphan _ _ _ _ M)|exact R|]. eapply not_open; eassumption.
  - intros r x R. eapply thing_put; [exact B|exact (m_orphan _ _ _ _ M)|exact R].
  - apply set_nth_same. eapply nth_lt, B.
Qed.

Lemma lift_find h k l m : Forall2 (fun (e : nat * nat) (b : nat * ref) => fst e = fst b /\ num h (snd b) (snd e)) l m ->
  match find (fun p => Nat.eqb (fst p) k) m with
  | None => option_map snd (find (fun e => fst e =? k) l) = None
  | Some (_, b) => exists x, option_map snd (find (fun e => fst e =? k) l) = Some x /\ num h b x
  end.
Proof.
  intros H. induction H as [|[k1 x] [k2 b] l m [A B] H IH]; [reflexivity|]. cbn [fst snd find] in *. subst k2. destruct (k1 =? k); [|exact IH]. exists x. auto.
Qed.

Section Args.
Variables (U : unicode) (ol : list (N * N)) (vf : nat).
Notation fo := (first_order U ol).
Variable self : forall A, call A -> Interp.M A.
Hypothesis IS : specs U ol self.
Hypothesis IH : mspecs U ol self.

Ltac andb := repeat match goal with H : (_ && _)%bool = true |- _ => apply andb_prop in H; destruct H end.

Lemma relative_part b n s r s1 g t x : self _ (KRelative (Some b) n) s = Ok (r, s1) -> fo n = true -> good s -> ctx g s -> said t s -> num (s_heap s) b x ->
  exists F t', relative U ol g t x (Some n) (Some F) t' /\ rform (s_heap s1) r F /\ said t' s1 /\ made s s1 Any r /\ s_vars s1 = s_vars s.
Proof.
  intros H Fo G C S N. destruct (p_rel _ _ _ IS _ _ _ _ _ Any H) as (M & V); try assumption; [apply any_env|exact I|].
  destruct (r_rel _ _ _ IH _ _ _ _ _ g (with_hoa g x) t H Fo G C) as (F & t' & A & B & D); [exists x; auto|exact S|].
  exists F, t'. split; [constructor; exact A|auto].
Qed.

(** The second conjunct of a restriction. *)
Lemma and_part s0 s b q n f r0 F y G k z s1 u s' t : made s0 s Any b -> nth_error (s_heap s) b = Some (CBinding q n f (Some r0) None) -> rform (s_heap s) r0 F ->
  made s0 s Any y -> y <> b -> rform (s_heap s) y G -> alloc (CConnection k r0 y) s = Ok (z, s1) -> set_restriction b z s1 = Ok (u, s') -> said t s ->
  made s0 s' Any b /\ s_vars s' = s_vars s /\ nth_error (s_heap s') b = Some (CBinding q n f (Some z) None) /\ rform (s_heap s') z (Both k F G) /\ said t s' /\
  (forall r x, rthing (s_heap s) r x -> rthing (s_heap s') r x).
Proof.
  intros M B Rf My N Rg A H S. destruct (and_made _ _ _ _ _ _ _ _ _ _ _ _ _ _ M B (made_or _ _ b _ My) N A H) as (M' & V' & N' & _ & _).
  split; [exact M'|]. split; [exact V'|]. split; [exact N'|].
  destruct (said_plain _ _ _ _ _ A eq_refl S) as (S1 & Nz & Gr). apply set_restriction_ok in H. destruct H as (q1 & n1 & f1 & rs1 & sc1 & B1 & ->).
  assert (B2 := Gr _ _ B). rewrite B2 in B1. injection B1 as <- <- <- <- <-.
  assert (O1 : forall r F', rform (s_heap s1) r F' -> r <> b) by (intros; eapply not_open; eassumption).
  assert (Rz : rform (s_heap s1) z (Both k F G)) by (econstructor 2; [exact Nz|eapply form_grows; eassumption|eapply form_grows; eassumption]).
  apply alloc_ok in A. destruct A as [-> ->]. cbn [with_heap s_heap] in *.
  assert (Or1 : orphan (s_heap s ++ [CConnection k r0 y]) b).
  { intros i (c & Ei & Ii). apply nth_snoc_inv in Ei. destruct Ei as [[_ Ei]|[_ ->]]; [apply (m_orphan _ _ _ _ M i); exists c; auto|].
    destruct Ii as [Ii|[Ii|[]]]; [|exact (N Ii)]. revert Ii. eapply not_open; [exact B|exact Rf]. }
  split; [|split].
  - eapply form_put; [exact B2|exact Or1|exact Rz|eapply O1, Rz].
  - eapply said_put; [exact S1|exact B2|exact Or1|exact (m_the _ _ _ _ M)].
  - intros r x R. eapply thing_put; [exact B2|exact Or1|]. eapply thing_grows; eassumption.
Qed.

Lemma restrict_part s0 s b q n f y F u s' t : made s0 s Any b -> nth_error (s_heap s) b = Some (CBinding q n f None None) -> made s0 s Any y -> y <> b ->
  rform (s_heap s) y F -> set_restriction b y s = Ok (u, s') -> said t s ->
  made s0 s' Any b /\ s_vars s' = s_vars s /\ nth_error (s_heap s') b = Some (CBinding q n f (Some y) None) /\ rform (s_heap s') y F /\ said t s' /\
  (forall r x, rthing (s_heap s) r x -> rthing (s_heap s') r x).
Proof.
  intros M B My N R H S. destruct (restrict_made _ _ _ _ _ _ _ _ _ _ M B (made_or _ _ b _ My) N H) as (M' & V' & N' & _).
  apply set_restriction_ok in H. destruct H as (q1 & n1 & f1 & rs1 & sc1 & B1 & ->). rewrite B in B1. injection B1 as <- <- <- <- <-.
  destruct (put_read _ _ _ _ _ _ _ q f (Some y) None _ M B S) as (S' & Rf & Rt & _). auto 8.
Qed.

(** The binding of y among x. *)
Lemma among_part s b ay s2 m s3 l s4 ax x g t : new_binding QAll false s = Ok (b, ay, s2) -> alloc (CPred "≺") s2 = Ok (m, s3) ->
  alloc (CPredication m [Some ay; Some ax]) s3 = Ok (l, s4) -> good s -> ctx g s -> said t s -> rthing (s_heap s) ax x ->
  made s s4 Any b /\ nth_error (s_heap s4) b = Some (CBinding QAll (t_next t) false None None) /\ made s s4 Any l /\ l <> b /\
  rform (s_heap s4) l (among (t_next t) x) /\ rthing (s_heap s4) ay (Bound (t_next t) false) /\ said (with_next t (S (t_next t))) s4 /\ s_vars s4 = s_vars s /\ ctx g s4.
Proof.
  intros H1 H2 H3 G C S T.
  destruct (new_binding_ok _ _ _ _ _ _ Any H1 G) as (M2 & V2 & _ & _). destruct (said_binding _ _ _ _ _ _ _ H1 S) as (S2 & N2 & T2 & Gr2).
  destruct (alloc_leaf _ _ _ _ (fun _ => False) H2 (m_good _ _ _ _ M2) eq_refl eq_refl) as (G3 & X3 & V3 & A3 & _); [intros ? []|discriminate|].
  destruct (said_plain _ _ _ _ _ H2 eq_refl S2) as (S3 & N3 & Gr3).
  assert (Ty := thing_grows _ _ _ _ Gr3 T2). assert (Tx := thing_grows _ _ _ _ Gr3 (thing_grows _ _ _ _ Gr2 T)).
  destruct (alloc_predication _ _ _ _ _ Any H3 G3) as (M4 & V4).
  { eapply atom_weak; [exact A3|intros d []]. }
  { intros y [Y|[Y|[]]]; injection Y as <-; eapply thing_atom; eassumption. }
  destruct (said_plain _ _ _ _ _ H3 eq_refl S3) as (S4 & N4 & Gr4).
  assert (X34 := m_ext _ _ _ _ M4). assert (X24 := ext_trans _ _ _ G3 X3 X34). assert (Mb := made_later _ _ _ _ _ M2 X24 (m_good _ _ _ _ M4)).
  assert (Vs : s_vars s4 = s_vars s) by congruence.
  split; [exact Mb|]. split; [eapply ext_nth; eassumption|].
  split; [eapply made_earlier; [exact G3|eapply ext_trans; [exact (m_good _ _ _ _ M2)|exact (m_ext _ _ _ _ M2)|exact X3]|exact M4]|].
  split; [pose proof (m_new _ _ _ _ M4); pose proof (ext_len _ _ X3); apply nth_lt in N2; lia|].
  split; [|split; [eapply thing_grows; eassumption|split; [exact S4|split; [exact Vs|exact (ctx_ext _ _ _ C (m_ext _ _ _ _ Mb) Vs)]]]].
  econstructor 1; [exact N4|constructor 1; apply Gr4, N3|]. repeat constructor; eapply thing_grows; eassumption.
Qed.
Definition arg_read (s' : st) (bo : option ref) (x : ref) (g : context) (t : state) f q p rel : Prop :=
  exists b th g' t', argument U ol g t f q p rel b th g' t' /\ rthing (s_heap s') x th /\ rbind (s_heap s') bo b false /\ ctx g' s' /\ said t' s'.

Lemma var_read v f q p rel s bo x s' g t : var_argument U self v q rel s = Ok (bo, x, s') -> match rel with None => true | Some n => fo n end = true ->
  good s -> ctx g s -> said t s -> lifted_at t (place p) = None -> is_variable U ol p = Some v ->
  match q with None => true | Some w => negb (has_text U w "ke") end = true -> arg_read s' bo x g t f q p rel.
Proof.
  intros H Fr G C Sd Lf Iv Fq. unfold var_argument in H. destruct q as [w|].
  - minv H. unfold lift in E. destruct (quantifier U (Some w)) as [q0| |] eqn:Q; try discriminate. injection E as <- <-.
    assert (Nq : q0 <> QThe) by (intros ->; apply quantifier_the in Q; rewrite Q in Fq; discriminate). apply quantifies_quantifier in Q.
    minv H. destruct (alloc_binding _ _ _ _ _ _ Any E G) as (M0 & V0 & N0). apply alloc_ok in E. destruct E as [-> ->]. set (b := length (s_heap s)) in *.
    minv H. unfold push_var in E. minv E. injection E0 as <- <-. injection E as <- <-.
    minv H. injection E as <-. cbn [s_heap s_n s_the s_hi s_lifted s_hoa s_vars with_heap b_q b_n b_focus b_restr b_scope] in *. set (s2 := with_heap _ _) in *.
    assert (M2 : made s s2 Any b).
    { assert (P : made s (put (with_heap s (s_heap s ++ [CBinding q0 0 false None None])) b (CBinding q0 (s_n s) false None None)) Any b) by (eapply put_made; try eassumption; [tauto|intros y []|constructor]).
      destruct P as [G' X N St' O T F]. split; try assumption. destruct G' as [W T' L V']. split; try assumption.
      intros v' b' [K|K]; [|apply (V' v' b' K)]. injection K as <- <-. exists q0, (s_n s), false, None, None. split; [|exact Nq].
      apply set_nth_same. eapply nth_lt, N0. }
    assert (H2 : s_heap s2 = s_heap s ++ [CBinding q0 (s_n s) false None None]).
    { cbn [s2 with_heap s_heap]. unfold b. clear. induction (s_heap s) as [|c h IHh]; [reflexivity|]. cbn. f_equal. exact IHh. }
    assert (N2 : nth_error (s_heap s2) b = Some (CBinding q0 (s_n s) false None None)) by (rewrite H2; apply nth_snoc).
    assert (S2 : said (with_next t (S (t_next t))) s2).
    { rewrite (d_next _ _ Sd). apply said_move with (s := s); try reflexivity; [exact Sd|rewrite H2; apply grows_snoc|]. rewrite H2. apply nums_binding, (d_nums _ _ Sd). }
    assert (Nb : num (s_heap s2) b (t_next t)) by (rewrite (d_next _ _ Sd); eexists _, _, _, _; exact N2).
    assert (C2 : ctx (with_var g v (t_next t)) s2).
    { destruct C as [Cv Ch]. split.
      - cbn [with_var c_vars s2 with_heap s_vars]. constructor; [split; [reflexivity|exact Nb]|].
        eapply forall2_weak; [exact Cv|]. intros y z [A B]. split; [exact A|]. eapply num_grows; [|exact B]. rewrite H2. apply grows_snoc.
      - cbn [with_var c_hoa s2 with_heap s_hoa]. eapply optional_weak; [exact Ch|]. intros y z B. eapply num_grows; [|exact B]. rewrite H2. apply grows_snoc. }
    rewrite <- (d_next _ _ Sd) in *. clearbody s2. clear H2 N0 M0 V0.
    minv H. destruct (alloc_leaf _ _ _ _ (eq b) E (m_good _ _ _ _ M2) eq_refl eq_refl) as (G3 & X3 & V3 & A3 & _); [intros ? []|intros; congruence|].
    destruct (said_plain _ _ _ _ _ E eq_refl S2) as (S3 & N3 & Gr3). clear E. rename a into y.
    assert (M3 := made_later _ _ _ _ _ M2 X3 G3). assert (B3 := Gr3 _ _ N2). assert (Nb3 := num_grows _ _ _ _ Gr3 Nb). assert (C3 := ctx_ext _ _ _ C2 X3 V3).
    assert (T3 : rthing (s_heap s0) y (Bound (t_next t) false)) by (econstructor 1; eassumption).
    minv H. minv H. injection H as <- <-. subst. destruct rel as [n|].
    + minv E. destruct (relative_part _ _ _ _ _ _ _ _ E0 Fr G3 C3 S3 Nb3) as (F & t' & A & B & D & M4 & V4).
      assert (Mb4 := made_later _ _ _ _ _ M3 (m_ext _ _ _ _ M4) (m_good _ _ _ _ M4)). assert (B4 := ext_nth _ _ _ _ (m_ext _ _ _ _ M4) B3).
      assert (Ne : a <> b) by (pose proof (m_new _ _ _ _ M4); apply nth_lt in B3; lia).
      destruct (restrict_part _ _ _ _ _ _ _ _ _ _ _ Mb4 B4 (made_earlier _ _ _ _ _ G3 (m_ext _ _ _ _ M3) M4) Ne B E D) as (M5 & V5 & B5 & R5 & D5 & T5).
      apply set_restriction_ok in E. destruct E as (q1 & n1 & f1 & rs1 & sc1 & B1 & ->). rewrite B4 in B1. injection B1 as <- <- <- <- <-.
      exists (Some (q0, t_next t, Some F)), (Bound (t_next t) false), (with_var g v (t_next t)), t'. split; [econstructor; eassumption|].
      split; [apply T5; eapply thing_grows; [apply ext_grows, (m_ext _ _ _ _ M4)|exact T3]|]. split; [exists a; auto|]. split; [|exact D5].
      eapply ctx_put; [|exact B4]. exact (ctx_ext _ _ _ C3 (m_ext _ _ _ _ M4) V4).
    + minv E. subst. exists (Some (q0, t_next t, None)), (Bound (t_next t) false), (with_var g v (t_next t)), (with_next t (S (t_next t))).
      split; [econstructor; try eassumption; constructor|auto].
  - minv H. destruct (lookup_ok _ _ _ _ _ Any E (any_env s)) as (Q1 & Q2 & Q3 & Q4 & Q5 & Q6 & D). minv H.
    assert (G0 : good s0) by (eapply good_same; [..|exact G]; assumption).
    assert (X0 : ext s s0) by (assert (K := ext_refl _ G); unfold ext in *; rewrite Q1, Q2, Q3, Q5; exact K).
    destruct (lookup_read _ _ _ _ _ _ E (k_vars _ _ C) _ _ _ Sd E0) as (th & i & L & T & S1 & Gr1).
    destruct (alloc_leaf _ _ _ _ Any E0 G0 eq_refl eq_refl) as (G1 & X1 & V1 & A1 & _); [intros ? []|intros; exact I|].
    assert (X01 := ext_trans _ _ _ G0 X0 X1). rename a into ax. assert (C1 : ctx g s1) by (apply (ctx_ext _ _ _ C X01); congruence). clear E E0. destruct rel as [rn|].
    + minv H. minv H. minv H. destruct (among_part _ _ _ _ _ _ _ _ _ _ _ _ E E0 E1 G1 C1 S1 T) as (Mb & Bb & Ml & Ne & Rl & Ty & S4 & V4 & C4).
      cbn [with_next t_next t_lifted t_outer] in *. minv H. assert (Nb : num (s_heap s4) r i) by (eexists _, _, _, _; exact Bb).
      destruct (relative_part _ _ _ _ _ _ _ _ E2 Fr (m_good _ _ _ _ Mb) C4 S4 Nb) as (F & t' & A & B & D5 & M5 & V5).
      minv H. destruct (said_plain _ _ _ _ _ E3 eq_refl D5) as (D6 & N6 & Gr6). assert (X5 := m_ext _ _ _ _ M5).
      assert (Ml5 := made_later _ _ _ _ _ Ml X5 (m_good _ _ _ _ M5)). assert (Ne5 : a0 <> a1) by (pose proof (m_new _ _ _ _ M5); destruct (m_stmt _ _ _ _ Ml) as (c & K & _); apply nth_lt in K; lia).
      assert (Mr5 := made_earlier _ _ _ _ _ (m_good _ _ _ _ Mb) (m_ext _ _ _ _ Mb) M5).
      destruct (alloc_connection _ _ _ _ _ _ _ _ E3 Ml5 Mr5 Ne5) as (M6 & V6).
      assert (Lz : r < length (s_heap s5)) by (eapply nth_lt, ext_nth; [exact X5|exact Bb]).
      assert (Nz : a2 <> r) by (apply alloc_ok in E3; destruct E3 as [-> _]; lia).
      assert (Gr46 : grows (s_heap s4) (s_heap s6)) by (eapply grows_trans; [apply ext_grows, X5|exact Gr6]).
      assert (Mb6 : made s1 s6 Any r).
      { destruct M6 as [G6 X6 _ _ _ _ _]. destruct (made_later _ _ _ _ _ Mb X5 (m_good _ _ _ _ M5)) as [Gm Xm Nm Sm Om Tm Fm].
        pose proof E3 as E3'. apply alloc_ok in E3'. destruct E3' as [Ez Es]. split; try assumption.
        - destruct Sm as (c & K1 & K2). exists c. split; [apply Gr6, K1|exact K2].
        - intros j (c & Ej & Ij). rewrite Es in Ej. cbn [with_heap s_heap] in Ej. apply nth_snoc_inv in Ej. destruct Ej as [[_ Ej]|[_ ->]]; [apply (Om j); exists c; auto|].
          destruct Ij as [Ij|[Ij|[]]]; [exact (Ne Ij)|]. pose proof (m_new _ _ _ _ M5). apply nth_lt in Bb. lia.
        - rewrite Es. exact Tm.
        - intros; left; exact I. }
      minv H. assert (Rz : rform (s_heap s6) a2 (Both KAnd (among i th) F)) by (exact (RFB _ _ _ _ _ _ _ N6 (form_grows _ _ _ _ Gr46 Rl) (form_grows _ _ _ _ Gr6 B))).
      destruct (restrict_part _ _ _ _ _ _ _ _ _ _ _ Mb6 (Gr46 _ _ Bb) M6 Nz Rz E4 D6) as (M7 & V7 & B7 & R7 & D7 & T7).
      minv H. injection H as <- <-. subst. exists (Some (QAll, i, Some (Both KAnd (among i th) F))), (Bound i false), g, t'.
      split; [econstructor; eassumption|]. split; [exact (T7 _ _ (thing_grows _ _ _ _ Gr46 Ty))|]. split; [exists a2; auto|]. split; [|exact D7].
      apply (ctx_ext _ _ _ C1 (m_ext _ _ _ _ M7)). congruence.
    + minv H. injection H as <- <-. subst. exists None, th, g, (with_next t i). split; [econstructor; eassumption|]. split; [exact T|]. split; [exact I|auto].
Qed.

Lemma hoa_read f q p rel s bo x s' g t : hoa_argument self q rel s = Ok (bo, x, s') -> match rel with None => true | Some n => fo n end = true ->
  good s -> ctx g s -> said t s -> lifted_at t (place p) = None -> is_variable U ol p = None -> is_hoa U p = true -> arg_read s' bo x g t f q p rel.
Proof.
  intros H Fr G C Sd Lf Iv Ih. unfold hoa_argument in H. minv H. injection E as <- <-. pose proof (k_hoa _ _ C) as Kh. destruct (s_hoa s) as [|def l] eqn:Hs; cbn [hd_error] in Kh.
  - inversion Kh as [K1 K2|]; subst. minv H. minv H. minv H. injection H as <- <-. subst. destruct (said_free _ _ _ _ _ _ E E0 Sd) as (S1 & T1 & Gr1).
    exists None, (Free (t_next t)), g, (with_next t (S (t_next t))). split; [constructor; auto|]. split; [exact T1|]. split; [exact I|]. split; [|exact S1].
    injection E as <- <-. apply alloc_ok in E0. destruct E0 as [_ ->]. eapply ctx_grows; [exact C|exact Gr1|reflexivity|reflexivity].
  - inversion Kh as [|a0 d0 K0 K1 K2]; subst. minv H. apply get_binding_ok in E. destruct E as [-> Bd]. minv H.
    destruct (alloc_leaf _ _ _ _ Any E G eq_refl eq_refl) as (G1 & X1 & V1 & A1 & _); [intros ? []|intros; exact I|].
    destruct (said_plain _ _ _ _ _ E eq_refl Sd) as (S1 & N1 & Gr1). clear E. rename a0 into ax. rename s0 into s1.
    assert (Ed : d0 = b_n a) by (destruct K0 as (q1 & f1 & r1 & c1 & K0); congruence). subst d0.
    assert (T1 : rthing (s_heap s1) ax (Bound (b_n a) false)) by (econstructor 1; [exact N1|eapply num_grows; eassumption]). assert (C1 := ctx_ext _ _ _ C X1 V1).
    assert (Plain : q = None -> rel = None -> bo = None -> s' = s1 -> x = ax -> arg_read s' bo x g t f q p rel).
    { intros -> -> -> -> ->. exists None, (Bound (b_n a) false), g, t. split; [apply AHoa; auto|]. split; [exact T1|]. split; [exact I|auto]. }
    assert (Some_ : (q <> None \/ rel <> None) -> (do '(b, ay) <- new_binding QAll false ;
          do among <- alloc (CPred "≺") ;
          do l <- alloc (CPredication among [Some ay; Some ax]) ;
          do _ <- set_restriction b l ;
          do _ <- match rel with
                  | Some n =>
                      do r <- self _ (KRelative (Some b) n) ;
                      do s <- alloc (CConnection KAnd l r) ;
                      set_restriction b s
                  | None => ret tt
                  end ;
          ret (Some b, ay)) s1 = Ok (bo, x, s') -> arg_read s' bo x g t f q p rel).
    { clear H Plain. intros Qr H. minv H. minv H. minv H. destruct (among_part _ _ _ _ _ _ _ _ _ _ _ _ E E0 E1 G1 C1 S1 T1) as (Mb & Bb & Ml & Ne & Rl & Ty & S4 & V4 & C4).
      minv H. destruct (restrict_part _ _ _ _ _ _ _ _ _ _ _ Mb Bb Ml Ne Rl E2 S4) as (M5 & V5 & B5 & R5 & S5 & T5).
      assert (C5 : ctx g s4) by (apply (ctx_ext _ _ _ C1 (m_ext _ _ _ _ M5)); congruence).
      minv H. minv H. injection H as <- <-. subst. destruct rel as [n|].
      - minv E3. assert (Nb : num (s_heap s4) r (t_next t)) by (eexists _, _, _, _; exact B5).
        destruct (relative_part _ _ _ _ _ _ _ _ E4 Fr (m_good _ _ _ _ M5) C5 S5 Nb) as (F & t' & A & B & D6 & M6 & V6).
        minv E3. assert (X6 := m_ext _ _ _ _ M6). assert (Mb6 := made_later _ _ _ _ _ M5 X6 (m_good _ _ _ _ M6)). assert (B6 := ext_nth _ _ _ _ X6 B5).
        assert (Mr6 := made_earlier _ _ _ _ _ (m_good _ _ _ _ M5) (m_ext _ _ _ _ M5) M6).
        assert (Nr : a2 <> r) by (pose proof (m_new _ _ _ _ M6); apply nth_lt in B5; lia).
        destruct (and_part _ _ _ _ _ _ _ _ _ _ _ _ _ _ _ _ Mb6 B6 (form_grows _ _ _ _ (ext_grows _ _ X6) R5) Mr6 Nr B E5 E3 D6) as (M7 & V7 & B7 & R7 & D7 & T7).
        exists (Some (QAll, t_next t, Some (Both KAnd (among (t_next t) (Bound (b_n a) false)) F))), (Bound (t_next t) false), g, t'.
        split; [eapply (AHoaSome U ol g t f q p (Some n) (b_n a) (Some F)); auto|]. split; [apply T7; eapply thing_grows; [apply ext_grows, X6|]; apply T5, Ty|].
        split; [eexists; split; [exact B7|exact R7]|]. split; [|exact D7]. apply (ctx_ext _ _ _ C1 (m_ext _ _ _ _ M7)). congruence.
      - minv E3. subst. exists (Some (QAll, t_next t, Some (among (t_next t) (Bound (b_n a) false)))), (Bound (t_next t) false), g, (with_next t (S (t_next t))).
        split; [eapply (AHoaSome U ol g t f q p None (b_n a) None); auto; constructor|]. split; [apply T5, Ty|]. split; [eexists; split; [exact B5|exact R5]|auto]. }
    destruct q as [w|], rel as [rn|].
    + apply Some_; [left; discriminate|exact H].
    + apply Some_; [left; discriminate|exact H].
    + apply Some_; [right; discriminate|exact H].
    + minv H. injection H as <- <-. auto.
Qed.

Lemma given_some (f : option word) : negb (is_none f) = given f.
Proof. destruct f; reflexivity. Qed.

Lemma argument_read f q p rel s bo x s' g t : predicate_argument U ol vf self f q p rel s = Ok (bo, x, s') -> fo (NPredArg f q p rel) = true ->
  good s -> ctx g s -> said t s -> arg_read s' bo x g t f q p rel.
Proof.
  intros H Fo G C Sd. cbn [first_order] in Fo. apply andb_prop in Fo. destruct Fo as [Fp Fr]. unfold predicate_argument in H.
  minv H. injection E as <- <-. pose proof (lift_find _ (key p) _ _ (d_lift _ _ Sd)) as Lf. destruct (find _ (s_lifted s)) as [[k b]|] eqn:Fi.
  - destruct Lf as (y & Ly & Ny). minv H. apply get_binding_ok in E. destruct E as [-> Bd]. minv H. minv H. injection H as <- <-. subst.
    assert (Ey : y = b_n a) by (destruct Ny as (q1 & f1 & r1 & c1 & K); congruence). subst y.
    destruct (alloc_leaf _ _ _ _ Any E G eq_refl eq_refl) as (G1 & X1 & V1 & _ & _); [intros ? []|intros; exact I|].
    destruct (said_plain _ _ _ _ _ E eq_refl Sd) as (S1 & N1 & Gr1).
    exists None, (Bound (b_n a) false), g, t. split; [apply ALifted; exact Ly|]. split; [econstructor 1; [exact N1|eapply num_grows; eassumption]|].
    split; [exact I|]. split; [exact (ctx_ext _ _ _ C X1 V1)|exact S1].
  - clear Fi. fold (lifted_at t (place p)) in Lf. destruct (is_variable U ol p) as [v|] eqn:Iv; [eapply var_read; eassumption|]. destruct (is_hoa U p) eqn:Ih; [eapply hoa_read; eassumption|].
    andb. rename H0 into Fq. rename H1 into Fp. minv H. unfold lift in E. destruct (quantifier U q) as [qq| |] eqn:Q; try discriminate. injection E as <- <-.
    assert (Nh : qq <> QHi).
    { intros ->. destruct q as [w|]; [|discriminate]. apply quantifier_hi in Q. rewrite Q in Fq. discriminate. }
    apply quantifies_quantifier in Q.
    minv H. rename r into b. rename r0 into a. destruct (new_binding_ok _ _ _ _ _ _ Any E G) as (M1 & V1 & _ & _). destruct (said_binding _ _ _ _ _ _ _ E Sd) as (S1 & B1 & T1 & Gr1). clear E. rename s0 into s1.
    rewrite given_some in T1. assert (G1 := m_good _ _ _ _ M1). assert (X1 := m_ext _ _ _ _ M1). assert (C1 := ctx_ext _ _ _ C X1 V1).
    minv H. unfold make_predication, predication in E. minv E.
    destruct (p_pred _ _ _ IS _ _ _ _ Any E0) as (G2 & X2 & V2 & P2); [exact Fp|exact G1|apply any_env|].
    destruct (r_pred _ _ _ IH _ _ _ _ _ _ E0 Fp G1 C1 S1) as (P & i & Ep & Rp & S2). clear E0. cbn [with_next t_next] in Ep.
    assert (T2 := thing_grows _ _ _ _ (ext_grows _ _ X2) T1).
    destruct (distribute_made Any _ _ _ _ _ E G2) as (M3 & V3).
    { eapply pall_weak; [exact P2|]. intros y K. eapply atom_weak; [exact K|]. intros d D. left. exact I. }
    { intros y n [Y|[]]. injection Y as <- <-. eapply thing_atom, T2. }
    destruct (distribute_read (s_heap s2) [(a, 0)] [Some a] [Some (Bound (t_next t) (given f))] _ eq_refl ltac:(repeat constructor; exact T2) _ _ _ _ _ E (grows_refl _) Rp S2) as (R3 & S3 & Gr3).
    clear E P2. rename a0 into r1. rename s0 into s3. set (F0 := holds P [Some (Bound (t_next t) (given f))]) in *.
    assert (G3 := m_good _ _ _ _ M3). assert (X13 := ext_trans _ _ _ G2 X2 (m_ext _ _ _ _ M3)).
    assert (M1' := made_later _ _ _ _ _ M1 X13 G3). assert (B3 := ext_nth _ _ _ _ X13 B1).
    assert (M3' : made s s3 Any r1) by (eapply made_earlier; [exact G2|exact (ext_trans _ _ _ G1 X1 X2)|exact M3]).
    assert (Nb : r1 <> b) by (pose proof (m_new _ _ _ _ M3); pose proof (ext_len _ _ X2); apply nth_lt in B1; lia).
    minv H. destruct (restrict_part _ _ _ _ _ _ _ _ _ _ _ M1' B3 M3' Nb R3 E S3) as (M4 & V4 & B4 & R4 & S4 & T4). clear E.
    assert (T4' := T4 _ _ (thing_grows _ _ _ _ Gr3 T2)). clear T4 Nb M3' M1' R3.
    assert (C4 : ctx g s0) by (apply (ctx_ext _ _ _ C (m_ext _ _ _ _ M4)); congruence). rename s0 into s4.
    replace (with_next (with_next t (S (t_next t))) i) with (with_next t i) in * by reflexivity.
    minv H. rename s0 into s5.
    assert (Fin : exists R0 t' rs, let R := match R0 with None => F0 | Some G => Both KAnd F0 G end in
      relative U ol g (with_next t i) (t_next t) rel R0 t' /\ made s s5 Any b /\ s_vars s5 = s_vars s /\
      nth_error (s_heap s5) b = Some (CBinding qq (t_next t) false (Some rs) None) /\ rform (s_heap s5) rs R /\ said t' s5 /\ rthing (s_heap s5) a (Bound (t_next t) (given f))).
    { destruct rel as [rn|].
      - minv E. assert (Nm : num (s_heap s4) b (t_next t)) by (eexists _, _, _, _; exact B4).
        destruct (relative_part _ _ _ _ _ _ _ _ E0 Fr (m_good _ _ _ _ M4) C4 S4 Nm) as (F & t' & A & B & D6 & M6 & V6). clear E0.
        minv E. assert (X6 := m_ext _ _ _ _ M6). assert (Mb6 := made_later _ _ _ _ _ M4 X6 (m_good _ _ _ _ M6)). assert (B6 := ext_nth _ _ _ _ X6 B4).
        assert (Mr6 := made_earlier _ _ _ _ _ (m_good _ _ _ _ M4) (m_ext _ _ _ _ M4) M6).
        assert (Nr : a0 <> b) by (pose proof (m_new _ _ _ _ M6); apply nth_lt in B4; lia).
        destruct (and_part _ _ _ _ _ _ _ _ _ _ _ _ _ _ _ _ Mb6 B6 (form_grows _ _ _ _ (ext_grows _ _ X6) R4) Mr6 Nr B E0 E D6) as (M7 & V7 & B7 & R7 & D7 & T7).
        eexists (Some F), t', _. split; [exact A|]. split; [exact M7|]. split; [congruence|]. split; [exact B7|]. split; [exact R7|]. split; [exact D7|].
        apply T7. eapply thing_grows; [apply ext_grows, X6|exact T4'].
      - minv E. subst. eexists None, _, _. split; [constructor|]. split; [exact M4|]. split; [congruence|]. split; [exact B4|]. split; [exact R4|]. split; [exact S4|exact T4']. }
    clear E M4 V4 B4 R4 S4 T4' C4. destruct Fin as (R0 & t' & rs & A & M & Vs & B & Rr & S5 & T5). set (R := match R0 with None => F0 | Some G => Both KAnd F0 G end) in *.
    assert (C5 := ctx_ext _ _ _ C (m_ext _ _ _ _ M) Vs).
    pose proof (APlain U ol g t f q p rel qq P i R0 R t' Lf Iv Ih Q Nh Ep A eq_refl) as Arg.
    assert (Open : qq <> QThe -> bo = Some b -> x = a -> s' = s5 -> arg_read s' bo x g t f q p rel).
    { intros Nq -> -> ->. exists (Some (qq, t_next t, Some R)), (Bound (t_next t) (given f)), g, t'. split; [destruct qq; try exact Arg; congruence|].
      split; [exact T5|]. split; [exists rs; auto|auto]. }
    destruct qq; try contradiction; try (minv H; injection H as <- <-; apply Open; auto; discriminate). clear Open.
    minv H. destruct (has_free_depends _ _ _ _ _ _ _ R g t' _ _ E M B Rr S5 C G) as (-> & ->).
    { destruct (names U ol) as (_ & _ & _ & N4 & _). destruct (N4 _ _ _ _ _ _ A) as (Lt & Nr). assert (Hd : forall y, In y (outside F0) -> In y (vnames g) \/ y = t_next t).
      { intros y I. apply holds_names in I. destruct I as [I|I]; [left; eapply predicate_names; eassumption|]. cbn in I. destruct I as [I|[]]. auto. }
      intros y I. unfold R in I. destruct R0 as [G0|]; [|destruct (Hd _ I); auto]. cbn [outside] in I. apply in_app_or in I. destruct I as [I|I]; [destruct (Hd _ I); auto|].
      apply (Nr (d_lok _ _ Sd) _ _ eq_refl I). }
    clear E. destruct (depends g R).
    + minv H. minv H. injection H as <- <-. subst. pose proof E as E'. apply set_quantifier_ok in E'. destruct E' as (q1 & n1 & f1 & rs1 & sc1 & B' & ->).
      rewrite B in B'. injection B' as <- <- <- <- <-.
      destruct (put_read _ _ _ _ _ _ _ QAll false (Some rs) None _ M B S5) as (S6 & Rf & Rt & B6).
      eexists _, _, _, _. split; [exact Arg|]. split; [apply Rt, T5|]. split; [exists rs; split; [exact B6|apply Rf, Rr]|]. split; [eapply ctx_put; eassumption|exact S6].
    + minv H. injection E as <-. minv H. injection E as <-. minv H. injection H as <- <-. subst.
      eexists _, _, _, _. split; [exact Arg|]. split; [exact T5|]. split; [exact I|]. split; [eapply ctx_same; [..|exact C5]; reflexivity|].
      destruct S5 as [Sn Su Sl So Sk]. split; cbn [t_next t_lifted t_outer s_n s_heap s_lifted s_the]; [exact Sn|exact Su| | |].
      * constructor; [|exact Sl]. split; [reflexivity|]. eexists _, _, _, _. exact B.
      * apply Forall2_app; [exact So|]. constructor; [|constructor]. exists rs. auto.
      * intros k y [K|K]; unfold onames; cbn [t_outer]; rewrite map_app; apply in_or_app; [injection K as <- <-; right; left; reflexivity|left; eapply Sk, K].
Qed.

End Args.
