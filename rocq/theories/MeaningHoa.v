(** addHoa fills the restrictions. *)

From Coq Require Import String NArith List Bool Arith Lia.
From Verif Require Import Base PegSyntax Ast AstSorts Logic LogicWords LogicSpec ScopeSpec Simplify OrderFacts SeqFacts TermFacts ScopeFacts ScopeSimp Meaning MeaningFacts.
Import ListNotations.
Open Scope string_scope.
Open Scope list_scope.
Open Scope nat_scope.

Lemma existsb_merge m l r : existsb (Nat.eqb m) (merge l r) = (existsb (Nat.eqb m) l || existsb (Nat.eqb m) r)%bool.
Proof.
  assert (Ex : forall l, existsb (Nat.eqb m) l = true <-> In m l).
  { intros l0. rewrite existsb_exists. split; [intros (x & I & E); apply Nat.eqb_eq in E; subst; exact I|intros I; exists m; rewrite Nat.eqb_refl; auto]. }
  apply eq_true_iff_eq. rewrite orb_true_iff, !Ex. apply merge_union.
Qed.

(** The numbers of the variables of a predicate; [m] is the number of a binding. *)
Lemma hoa_prop h p P m : rprop h p P -> (forall r g, nth_error h r <> Some (CVariable m None g)) ->
  forall f s u s', x_heap s = h -> add_hoa f p None s = Ok (u, s') -> s' = s /\ existsb (Nat.eqb m) u = existsb (Nat.eqb m) (of_property P).
Proof.
  intros R Nf. induction R as [r n E|r t T|r x y p q E R1 IH1 R2 IH2]; intros [|f] s u s' Hs H; try discriminate; cbn [add_hoa] in H; minv H; apply get_inv in E0 || apply get_inv in E; subst h.
  - destruct E0 as [-> K]. rewrite E in K. injection K as <-. minv H. subst. auto.
  - destruct E as [-> K]. destruct T as [r n d g E _|r n E]; rewrite E in K; injection K as <-; minv H; subst; (split; [reflexivity|]); cbn [of_property of_thing]; [reflexivity|].
    cbn [existsb]. destruct (Nat.eqb_spec m n) as [->|]; [destruct (Nf _ _ E)|reflexivity].
  - destruct E0 as [-> K]. rewrite E in K. injection K as <-. minv H. destruct (IH1 _ _ _ _ eq_refl E0) as (-> & U1). minv H. destruct (IH2 _ _ _ _ eq_refl E1) as (-> & U2).
    minv H. subst. split; [reflexivity|]. cbn [of_property]. rewrite existsb_merge, existsb_app, U1, U2. reflexivity.
Qed.

Section Hoa.
Variables (root : ref) (h0 : heap) (k : nat).
Hypothesis C0 : closed root h0.
Hypothesis N0 : nums h0 k.

Lemma und_one bd x : und h0 bd x -> forall bd', und h0 bd' x -> bd = bd'.
Proof.
  assert (W := c_wf _ _ C0). assert (Own : forall x bd i j, und h0 bd x -> child h0 i x -> child h0 j x -> i = j) by (intros; eapply (w_own _ W); [eassumption..|eapply und_stmt; eassumption]).
  intros V. induction V as [q n f x sc E|c kk x y z V IH E Z]; intros bd' V'.
  - assert (V := UR _ _ _ _ _ _ _ E). inversion V' as [q' n' f' ? sc' E'|c' k' x' y' ? V2 E' Z']; subst.
    + eapply Own; [exact V| |]; eexists; (split; [eassumption|left; reflexivity]).
    + assert (K : bd = c') by (eapply Own; [exact V| |]; eexists; (split; [eassumption|]); cbn; intuition auto). subst. congruence.
  - assert (Vz := UC _ _ _ _ _ _ _ V E Z). inversion V' as [q' n' f' ? sc' E'|c' k' x' y' ? V2 E' Z']; subst.
    + assert (K : c = bd') by (eapply Own; [exact Vz| |]; eexists; (split; [eassumption|]); cbn; intuition auto). subst. congruence.
    + assert (K : c = c') by (eapply Own; [exact Vz| |]; eexists; (split; [eassumption|]); cbn; intuition auto). subst c'. apply IH, V2.
Qed.

(** What may have happened since. *)
Record legit (h : heap) : Prop := Legit {
  l_old : forall i c, nth_error h0 i = Some c -> nth_error h i = Some c \/
    exists p bd n v, c = CPredication p [] /\ und h0 bd i /\ num h0 bd n /\ (forall P, rprop h0 p P -> existsb (Nat.eqb n) (of_property P) = false) /\
      nth_error h i = Some (CPredication p [Some v]) /\ nth_error h v = Some (CVariable n (Some bd) false);
  l_new : forall i c, nth_error h i = Some c -> length h0 <= i -> exists n d, c = CVariable n (Some d) false }.
Definition settled (c : cell) : Prop := forall p, c <> CPredication p [].
Definition since (h h' : heap) : Prop := forall i c, nth_error h i = Some c -> settled c -> nth_error h' i = Some c.

Lemma since_refl h : since h h.
Proof. intros i c E _. exact E. Qed.
Lemma since_trans a b c : since a b -> since b c -> since a c.
Proof. intros X Y i d E S. auto. Qed.
Lemma legit0 : legit h0.
Proof. split; [auto|]. intros i c E L. apply nth_lt in E. lia. Qed.
Lemma legit_since h : legit h -> since h0 h.
Proof. intros L i c E S. destruct (l_old _ L _ _ E) as [K|(p & bd & n & v & -> & _)]; [exact K|destruct (S p); reflexivity]. Qed.
Lemma legit_keep h : legit h -> keep h0 h.
Proof. intros L i c E S. apply (legit_since _ L); [exact E|]. intros p ->. exact S. Qed.
Lemma legit_back h i c : legit h -> nth_error h i = Some c -> (forall n d, c <> CVariable n (Some d) false) -> (forall p v, c <> CPredication p [Some v]) -> nth_error h0 i = Some c.
Proof.
  intros L E V P. destruct (le_lt_dec (length h0) i) as [G|G]; [destruct (l_new _ L _ _ E G) as (n & d & ->); destruct (V n d); reflexivity|].
  destruct (nth_error h0 i) as [c0|] eqn:E0; [|apply nth_error_None in E0; lia]. destruct (l_old _ L _ _ E0) as [K|(p & bd & n & v & _ & _ & _ & _ & K & _)]; [congruence|].
  rewrite K in E. injection E as <-. destruct (P p v). reflexivity.
Qed.
Lemma legit_num h d n : legit h -> (num h d n <-> num h0 d n).
Proof.
  intros L. split; intros (q & f & rs & sc & E); exists q, f, rs, sc; [eapply legit_back; [exact L|exact E|discriminate|discriminate]|apply (legit_since _ L); [exact E|discriminate]].
Qed.
Lemma legit_nums h : legit h -> nums h k.
Proof.
  intros L. destruct N0 as [A B D Z]. split.
  - intros d m K. apply legit_num in K; [|exact L]. eapply A, K.
  - intros d d' m K K'. apply legit_num in K, K'; try exact L. eapply B; eassumption.
  - intros r m f E. apply legit_back in E; [|exact L|discriminate|discriminate]. destruct (D _ _ _ E) as [Lt Nn]. split; [exact Lt|]. intros d K. apply legit_num in K; [|exact L]. eapply Nn, K.
  - intros r r' m f f' E E'. apply legit_back in E, E'; try exact L; try discriminate. eapply Z; eassumption.
Qed.
Lemma legit_thing h r t : legit h -> rthing h0 r t -> rthing h r t.
Proof.
  intros L T. destruct T as [r n d f E K|r n E]; [econstructor 1|constructor 2]; try (apply (legit_since _ L); [exact E|discriminate]). apply legit_num; assumption.
Qed.
Lemma legit_prop h r p : legit h -> rprop h0 r p -> rprop h r p.
Proof.
  intros L R. induction R as [r n E|r t T|r x y p q E R1 IH1 R2 IH2]; [constructor 1; apply (legit_since _ L); [exact E|discriminate]|constructor 2; apply legit_thing; assumption|].
  econstructor 3; [apply (legit_since _ L); [exact E|discriminate]|exact IH1|exact IH2].
Qed.
Lemma legit_opts h xs l : legit h -> Forall2 (optional (rthing h0)) xs l -> Forall2 (optional (rthing h)) xs l.
Proof. intros L H. induction H as [|o t xs l O H IH]; constructor; [|exact IH]. destruct O; constructor. apply legit_thing; assumption. Qed.

Definition below_of (b : option ref) (x : ref) : Prop :=
  match b with Some bd => und h0 bd x | None => forall bd, ~ und h0 bd x end.
Definition named (b : option ref) (m : option nat) : Prop := optional (num h0) b m.

Lemma hoa_fills : forall f x b s u s' F m, add_hoa f x b s = Ok (u, s') -> closed root (x_heap s) -> legit (x_heap s) -> rform h0 x F -> below_of b x -> named b m ->
  legit (x_heap s') /\ since (x_heap s) (x_heap s') /\
  forall h, legit h -> since (x_heap s') h -> rform h x (filled m F).
Proof.
  assert (W := c_wf _ _ C0).
  assert (Own : forall x i j, stmt h0 x -> child h0 i x -> child h0 j x -> i = j) by (intros x i j S A B; exact (w_own _ W _ _ _ A B S)).
  induction f as [|f IH]; intros x b s u s' F m H C L R B Nm; [discriminate|]. pose proof H as H'. cbn [add_hoa] in H. minv H. apply get_inv in E. destruct E as [-> Ex].
  destruct R as [r p xs P l E Rp Rl|r c y z F G E Rf Rg|r q n fo y F E Rf|r q n fo y z R F E Rr Rf].
  - (* predication *)
    destruct (l_old _ L _ _ E) as [K|(p' & bd & n & v & X & Ub & Nb & Us & K & Kv)].
    2: { (* done before *)
      injection X as -> ->. inversion Rl; subst. rewrite K in Ex. injection Ex as <-.
      destruct b as [bd'|]; [|destruct (B _ Ub)]. rewrite <- (und_one _ _ Ub _ B) in *. inversion Nm as [|? m' Nm' K1 K2]; subst.
      assert (n = m') by (destruct Nb as (? & ? & ? & ? & Q1), Nm' as (? & ? & ? & ? & Q2); congruence). subst m'.
      assert (Ch : forall k, In k (below (CPredication p' [Some v])) -> ~ stmt (x_heap s) k).
      { intros j I (c2 & E2 & S2). destruct (w_kind _ (c_wf _ _ C) _ _ _ K I) as (c3 & E3 & S3). cbn in S3. congruence. }
      minv H. apply hoa_atom in E0; [|exact (c_wf _ _ C)|apply Ch; left; reflexivity]. subst s0.
      minv H. apply hoa_args in E0; [|exact (c_wf _ _ C)|intros y I; apply Ch; right; apply in_flat_map; exists (Some y); split; [exact I|left; reflexivity]].
      subst s0. minv H. subst. split; [exact L|]. split; [apply since_refl|]. intros h Lh Sh. cbn [filled]. rewrite (Us _ Rp).
      econstructor 1; [apply Sh; [exact K|discriminate]|apply legit_prop; assumption|]. repeat constructor. econstructor 1; [apply Sh; [exact Kv|discriminate]|apply legit_num; assumption]. }
    rewrite K in Ex. injection Ex as <-.
    assert (Ch : forall k, In k (below (CPredication p xs)) -> ~ stmt (x_heap s) k).
    { intros j I (c2 & E2 & S2). destruct (w_kind _ (c_wf _ _ C) _ _ _ K I) as (c3 & E3 & S3). cbn in S3. congruence. }
    assert (Same : s' = s -> (forall h, legit h -> nth_error h r = Some (CPredication p xs)) -> filled m (Holds P l) = Holds P l ->
      legit (x_heap s') /\ since (x_heap s) (x_heap s') /\ forall h, legit h -> since (x_heap s') h -> rform h r (filled m (Holds P l))).
    { intros -> Nc ->. split; [exact L|]. split; [apply since_refl|]. intros h Lh _. econstructor 1; [apply Nc, Lh|apply legit_prop; assumption|apply legit_opts; assumption]. }
    minv H. rename E0 into Ea. pose proof Ea as Eu. apply hoa_atom in Ea; [|exact (c_wf _ _ C)|apply Ch; left; reflexivity]. subst s0.
    minv H. pose proof E0 as Ev. apply hoa_args in E0; [|exact (c_wf _ _ C)|intros y I; apply Ch; right; apply in_flat_map; exists (Some y); split; [exact I|left; reflexivity]].
    subst s0. destruct xs as [|x1 xs].
    + inversion Rl; subst. cbn [used_args] in Ev. minv Ev. subst. destruct b as [bd|].
      * inversion Nm as [|? m' Nm' K1 K2]; subst. minv H. apply get_inv in E0. destruct E0 as [-> Eb].
        assert (Eb' : exists q f0 rs sc, a = CBinding q m' f0 rs sc).
        { destruct (proj2 (legit_num _ _ _ L) Nm') as (q & f0 & rs & sc & Q). rewrite Q in Eb. injection Eb as <-. eauto 6. }
        destruct Eb' as (q & f0 & rs & sc & ->).
        assert (Fr : forall r g, nth_error (x_heap s) r <> Some (CVariable m' None g)).
        { intros r1 g Q. destruct (u_free _ _ (legit_nums _ L) _ _ _ Q) as (_ & Nn). apply (Nn bd). apply legit_num; assumption. }
        destruct (hoa_prop _ _ _ _ (legit_prop _ _ _ L Rp) Fr _ _ _ _ eq_refl Eu) as (_ & Us). rewrite Us in H.
        destruct (existsb (Nat.eqb m') (of_property P)) eqn:Ep.
        -- minv H. apply Same; [congruence| |cbn [filled]; rewrite Ep; reflexivity].
           intros h Lh. destruct (l_old _ Lh _ _ E) as [K'|(p' & bd' & n & v & X & Ub & Nb & Us' & K' & Kv)]; [exact K'|].
           injection X as <-. rewrite <- (und_one _ _ Ub _ B) in *. assert (n = m') by (destruct Nb as (? & ? & ? & ? & Q1), Nm' as (? & ? & ? & ? & Q2); congruence). subst n.
           rewrite (Us' _ Rp) in Ep. discriminate.
        -- minv H. injection E0 as <- <-. minv H. injection E0 as <-. minv H. subst s'. cbn [x_heap x_sub].
           assert (Lr := nth_lt _ _ _ K). set (h1 := x_heap s) in *. set (v := length h1) in *.
           assert (Kr : nth_error (set_nth r (CPredication p [Some v]) (h1 ++ [CVariable m' (Some bd) false])) r = Some (CPredication p [Some v])) by (apply set_nth_same; rewrite app_length; lia).
           assert (Kv : nth_error (set_nth r (CPredication p [Some v]) (h1 ++ [CVariable m' (Some bd) false])) v = Some (CVariable m' (Some bd) false)) by (rewrite set_nth_other by (unfold v; lia); apply nth_snoc).
           assert (Ko : forall i c, nth_error h1 i = Some c -> i <> r -> nth_error (set_nth r (CPredication p [Some v]) (h1 ++ [CVariable m' (Some bd) false])) i = Some c).
           { intros i c Q Ni. rewrite set_nth_other by auto. rewrite nth_snoc_old; [exact Q|eapply nth_lt, Q]. }
           set (h2 := set_nth r (CPredication p [Some v]) (h1 ++ [CVariable m' (Some bd) false])) in *.
           assert (Us2 : forall P', rprop h0 p P' -> existsb (Nat.eqb m') (of_property P') = false).
           { intros P' Rp'. destruct (hoa_prop _ _ _ _ (legit_prop _ _ _ L Rp') Fr _ _ _ _ eq_refl Eu) as (_ & Us'). congruence. }
           assert (L2 : legit h2).
           { split.
             - intros i c Q. destruct (Nat.eq_dec i r) as [->|Ni]; [right; exists p, bd, m', v; rewrite E in Q; injection Q as <-; auto 8|].
               destruct (l_old _ L _ _ Q) as [K'|(p' & bd' & n & v' & X & Ub & Nb & Us' & K' & Kv')]; [left; apply Ko; assumption|right].
               exists p', bd', n, v'. repeat match goal with |- _ /\ _ => split end; try assumption; apply Ko; try assumption. intros ->. rewrite K in Kv'. discriminate.
             - intros i c Q Li. destruct (Nat.eq_dec i r) as [->|Ni]; [apply nth_lt in E; lia|]. unfold h2 in Q. rewrite set_nth_other in Q by auto.
               apply nth_snoc_inv in Q. destruct Q as [[_ Q]|[_ ->]]; [eapply (l_new _ L); eassumption|eauto]. }
           split; [exact L2|]. split.
           { intros i c Q Sc. apply Ko; [exact Q|]. intros ->. unfold h1 in *. rewrite K in Q. injection Q as <-. destruct (Sc p). reflexivity. }
           intros h Lh Sh. cbn [filled]. rewrite Ep. econstructor 1; [apply Sh; [exact Kr|discriminate]|apply legit_prop; assumption|].
           repeat constructor. econstructor 1; [apply Sh; [exact Kv|discriminate]|apply legit_num; assumption].
      * inversion Nm; subst. minv H. apply Same; [congruence| |reflexivity]. intros h Lh. destruct (l_old _ Lh _ _ E) as [K'|(p' & bd' & n & v & X & Ub & _)]; [exact K'|destruct (B _ Ub)].
    + assert (s' = s) by (destruct b; minv H; congruence). apply Same; [assumption|intros h Lh; apply (legit_since _ Lh); [exact E|discriminate]|]. inversion Rl; subst. destruct m; reflexivity.
  - (* connection *)
    assert (K := legit_since _ L _ _ E ltac:(discriminate)). rewrite K in Ex. injection Ex as <-.
    assert (Sy : forall w, w = y \/ w = z -> stmt h0 w /\ child h0 r w /\ below_of b w).
    { intros w Hw. assert (Cw : child h0 r w) by (eexists; split; [exact E|]; cbn; intuition auto).
      assert (Sw : stmt h0 w) by (destruct Cw as (c1 & E1 & I1); rewrite E in E1; injection E1 as <-; destruct (w_kind _ W _ _ _ E I1) as (c2 & E2 & S2); exists c2; auto).
      split; [exact Sw|]. split; [exact Cw|]. destruct b as [bd|]; [exact (UC _ _ _ _ _ _ _ B E Hw)|]. intros bd V. inversion V as [q' n' f' ? sc' E'|c' k' x' y' ? V2 E' Z']; subst.
      - assert (bd = r) by (eapply Own; [exact Sw| |exact Cw]; eexists; (split; [exact E'|left; reflexivity])). subst. congruence.
      - assert (c' = r) by (eapply Own; [exact Sw| |exact Cw]; eexists; (split; [exact E'|]); cbn; intuition auto). subst. exact (B _ V2). }
    destruct (Sy y (or_introl eq_refl)) as (_ & _ & By). destruct (Sy z (or_intror eq_refl)) as (_ & _ & Bz).
    minv H. destruct (IH _ _ _ _ _ _ _ E0 C L Rf By Nm) as (L1 & S1 & R1). destruct (hoa_closed root _ _ _ _ _ _ E0 C) as (C1 & _ & _).
    { intros bd ->. eapply und_keep; [apply legit_keep, L|exact By]. }
    minv H. destruct (IH _ _ _ _ _ _ _ E1 C1 L1 Rg Bz Nm) as (L2 & S2 & R2). minv H. subst. split; [exact L2|]. split; [eapply since_trans; eassumption|].
    intros h Lh Sh. cbn [filled]. econstructor 2; [apply (legit_since _ Lh); [exact E|discriminate]|apply R1; [exact Lh|eapply since_trans; eassumption]|apply R2; assumption].
  - (* binding *)
    assert (K := legit_since _ L _ _ E ltac:(discriminate)). rewrite K in Ex. injection Ex as <-. minv H. minv E0. subst s0.
    assert (By : below_of None y).
    { assert (Cy : child h0 r y) by (eexists; split; [exact E|left; reflexivity]). assert (Sy : stmt h0 y) by (destruct (w_kind _ W _ _ y E) as (c2 & E2 & S2); [left; reflexivity|exists c2; auto]).
      intros bd V. inversion V as [q' n' f' ? sc' E'|c' k' x' y' ? V2 E' Z']; subst.
      - assert (bd = r) by (eapply Own; [exact Sy| |exact Cy]; eexists; (split; [exact E'|left; reflexivity])). subst. congruence.
      - assert (c' = r) by (eapply Own; [exact Sy| |exact Cy]; eexists; (split; [exact E'|]); cbn; intuition auto). subst. congruence. }
    minv H. destruct (IH _ _ _ _ _ _ None E1 C L Rf By ltac:(constructor)) as (L1 & S1 & R1). minv H. subst. split; [exact L1|]. split; [exact S1|].
    intros h Lh Sh. cbn [filled]. econstructor 3; [apply (legit_since _ Lh); [exact E|discriminate]|apply R1; assumption].
  - (* restricted binding *)
    assert (K := legit_since _ L _ _ E ltac:(discriminate)). rewrite K in Ex. injection Ex as <-.
    assert (Bz : below_of None z).
    { assert (Cy : child h0 r z) by (eexists; split; [exact E|right; left; reflexivity]). assert (Sy : stmt h0 z) by (destruct (w_kind _ W _ _ z E) as (c2 & E2 & S2); [right; left; reflexivity|exists c2; auto]).
      intros bd V. inversion V as [q' n' f' ? sc' E'|c' k' x' y' ? V2 E' Z']; subst.
      - assert (bd = r) by (eapply Own; [exact Sy| |exact Cy]; eexists; (split; [exact E'|left; reflexivity])). subst. rewrite E in E'. injection E' as <- <- <- <- <-.
        pose proof (w_two _ W _ _ E eq_refl) as Nd. cbn in Nd. inversion Nd as [|? ? Ni _]. apply Ni. left. reflexivity.
      - assert (c' = r) by (eapply Own; [exact Sy| |exact Cy]; eexists; (split; [exact E'|]); cbn; intuition auto). subst. congruence. }
    assert (By : below_of (Some r) y) by exact (UR _ _ _ _ _ _ _ E).
    minv H. destruct (IH _ _ _ _ _ _ (Some n) E0 C L Rr By) as (L1 & S1 & R1); [constructor; eexists _, _, _, _; exact E|]. destruct (hoa_closed root _ _ _ _ _ _ E0 C) as (C1 & _ & _).
    { intros bd X. injection X as <-. eapply und_keep; [apply legit_keep, L|exact By]. }
    minv H. destruct (IH _ _ _ _ _ _ None E1 C1 L1 Rf Bz ltac:(constructor)) as (L2 & S2 & R2). minv H. subst. split; [exact L2|]. split; [eapply since_trans; eassumption|].
    intros h Lh Sh. cbn [filled]. econstructor 4; [apply (legit_since _ Lh); [exact E|discriminate]|apply R1; [exact Lh|eapply since_trans; eassumption]|apply R2; assumption].
Qed.

(** addHoa, as a whole. *)
Theorem hoa_filled f u s F : add_hoa f root None (SSt h0 []) = Ok (u, s) -> rform h0 root F -> rform (x_heap s) root (filled None F) /\ nums (x_heap s) k.
Proof.
  intros H R. destruct (hoa_fills _ _ _ _ _ _ F None H C0 legit0 R) as (L & S & K).
  - intros bd V. destruct (und_child _ _ _ V) as (i & Ch & _). exact (c_orphan _ _ C0 _ Ch).
  - constructor.
  - split; [apply K; [exact L|apply since_refl]|apply legit_nums, L].
Qed.
End Hoa.
