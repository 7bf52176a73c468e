(** addHoa fills the restrictions. *)

From Coq Require Import String NArith List Bool Arith Lia.
From Verif Require Import Base PegSyntax Ast AstSorts Logic LogicWords LogicSpec ScopeSpec Simplify OrderFacts SeqFacts TermFacts ScopeFacts ScopeSimp Meaning MeaningFacts MeaningHoa Clauses ClauseHeap.
Import ListNotations.
Open Scope string_scope.
Open Scope list_scope.
Open Scope nat_scope.

(** ** Ways down connections and serials *)

Inductive spine (h : heap) : ref -> Prop :=
  | Spine r : (forall c x, nth_error h r = Some c -> In x (older c) -> spine h x) -> spine h r.
Definition firm (h : heap) : Prop := forall r, spine h r.
Lemma spine_property h r p : rprop h r p -> spine h r.
Proof.
  induction 1 as [r n E|r t T|r x y p q E R1 IH1 R2 IH2]; constructor; intros c z E' J.
  - rewrite E in E'. injection E' as <-. destruct J.
  - destruct T as [? ? ? ? E _|? ? E]; rewrite E in E'; injection E' as <-; destruct J.
  - rewrite E in E'. injection E' as <-. destruct J as [<-|[<-|[]]]; assumption.
Qed.
Lemma spine_at h : forall F X r, at_f h X r F -> spine h r.
Proof.
  induction F; intros X z A; inversion A; subst; constructor; intros d w E' J; match goal with K : nth_error h z = Some ?c |- _ => assert_fails (is_var c); rewrite K in E' end; injection E' as <-; cbn [older In] in J; try contradiction.
  destruct J as [<-|[<-|[]]]; eauto.
Qed.
Lemma firm_put h r c : firm h -> r < length h -> spine (set_nth r c h) r -> firm (set_nth r c h).
Proof.
  intros H L N z. induction (H z) as [z _ IH]. destruct (Nat.eq_dec z r) as [->|Nz]; [exact N|]. constructor. intros d x E J. rewrite set_nth_other in E by auto. eapply IH; eassumption.
Qed.
Lemma firm_flat h r c : firm h -> r < length h -> older c = [] -> firm (set_nth r c h).
Proof. intros H L N. apply firm_put; [exact H|exact L|]. constructor. intros d x E J. rewrite set_nth_same in E by exact L. injection E as <-. rewrite N in J. destruct J. Qed.
Lemma firm_snoc h c : firm h -> older c = [] -> firm (h ++ [c]).
Proof.
  intros H N z. induction (H z) as [z _ IH]. constructor. intros d x E J. apply nth_snoc_inv in E. destruct E as [[_ E]|[-> ->]]; [eapply IH; eassumption|]. rewrite N in J. destruct J.
Qed.

(** ** Changes *)

(** What is not in [X] stays, and no binding and no unbound variable is added. *)
Record moves (h h' : heap) (X : list ref) : Prop := Moves {
  mv_keeps : keeps h h' (fun i => ~ In i X);
  mv_num : forall d n, num h' d n -> num h d n;
  mv_free : forall r n f, nth_error h' r = Some (CVariable n None f) -> nth_error h r = Some (CVariable n None f);
  mv_firm : firm h -> firm h' }.
Lemma moves_refl h X : moves h h X.
Proof. split; [split|..]; auto. Qed.
Lemma moves_trans h1 h2 h3 X Y Z : moves h1 h2 X -> moves h2 h3 Y -> (forall i, In i X \/ In i Y -> In i Z) -> moves h1 h3 Z.
Proof.
  intros [K N F M] [K' N' F' M'] S. split; [|auto..]. eapply keeps_weak; [eapply keeps_trans; eassumption|]. cbn. intros i I. split; intros J; apply I, S; auto.
Qed.
Lemma moves_weak h1 h2 X Z : moves h1 h2 X -> (forall i, In i X -> In i Z) -> moves h1 h2 Z.
Proof. intros [K N F M] S. split; [|auto..]. eapply keeps_weak; [eassumption|]. cbn. intros i I J. apply I, S, J. Qed.
Lemma moves_nums h h' X k : moves h h' X -> nums h k -> nums h' k.
Proof.
  intros [K N F _] [A B C D]. split; [eauto|eauto| |].
  - intros r m f E. apply F in E. destruct (C _ _ _ E) as [L M]. split; [exact L|]. intros d J. apply (M d), N, J.
  - intros r r' m f f' E E'. apply F in E, E'. eauto.
Qed.
Definition label (c : cell) : option nat := match c with CBinding _ n _ _ _ => Some n | _ => None end.
Lemma moves_set h r c c' : nth_error h r = Some c -> mutable c = true -> mutable c' = true -> label c' = label c -> (firm h -> firm (set_nth r c' h)) -> moves h (set_nth r c' h) [r].
Proof.
  intros E M M' L Fi. assert (Lt := nth_lt _ _ _ E). split.
  - eapply keeps_weak; [eapply keeps_put; [exact E|exact M|]|].
    + intros q n f rs sc ->. destruct c'; try discriminate. injection L as ->. eauto 6.
    + cbn. intros i I J. apply I. auto.
  - intros d n (q & f & rs & sc & D). unfold num. rewrite nth_set in D by exact Lt. destruct (Nat.eqb_spec d r) as [->|N]; [|eauto 6].
    injection D as ->. destruct c; try discriminate. injection L as ->. eauto 6.
  - intros i n f D. rewrite nth_set in D by exact Lt. destruct (Nat.eqb_spec i r) as [->|N]; [injection D as ->; discriminate|exact D].
  - exact Fi.
Qed.
Definition settled (c : cell) : bool := mutable c && match c with CConnection _ _ _ => false | _ => true end.
Lemma moves_put h r c c' : nth_error h r = Some c -> mutable c = true -> settled c' = true -> label c' = label c -> moves h (set_nth r c' h) [r].
Proof.
  intros E M M' L. apply andb_prop in M'. destruct M' as [M1 M2]. eapply moves_set; try eassumption. intros H. apply firm_flat; [exact H|eapply nth_lt, E|]. destruct c'; try discriminate; reflexivity.
Qed.
Lemma moves_conn h r c k x y X Y F G : nth_error h r = Some c -> mutable c = true -> label c = None -> at_f h X x F -> at_f h Y y G -> ~ In r X -> ~ In r Y ->
  moves h (set_nth r (CConnection k x y) h) [r].
Proof.
  intros E M L Ax Ay Nx Ny. eapply moves_set; try eassumption; [reflexivity|symmetry; exact L|]. intros H. apply firm_put; [exact H|eapply nth_lt, E|].
  assert (K : keeps h (set_nth r (CConnection k x y) h) (fun i => i <> r)).
  { eapply keeps_put; [exact E|exact M|]. intros q n f rs sc ->. discriminate. }
  constructor. intros d z E' J. rewrite set_nth_same in E' by (eapply nth_lt, E). injection E' as <-. destruct J as [<-|[<-|[]]].
  - eapply spine_at, keeps_f; [exact K|exact Ax|]. intros i I ->. exact (Nx I).
  - eapply spine_at, keeps_f; [exact K|exact Ay|]. intros i I ->. exact (Ny I).
Qed.
Lemma moves_snoc h c X : match c with CBinding _ _ _ _ _ | CVariable _ None _ | CConnection _ _ _ | CSerial _ _ => false | _ => true end = true -> moves h (h ++ [c]) X.
Proof.
  intros P. split.
  - eapply keeps_weak; [apply keeps_grows, grows_snoc|]. intros; exact I.
  - intros d n N. apply num_snoc in N. destruct N as [N|(_ & q & f & rs & sc & ->)]; [exact N|discriminate].
  - intros r n f E. apply nth_snoc_inv in E. destruct E as [[_ E]|[_ <-]]; [exact E|discriminate].
  - intros H. apply firm_snoc; [exact H|]. destruct c; try discriminate; reflexivity.
Qed.

Definition once (X : list ref) : Prop := forall i, cnt X i <= 1.
Lemma nodup_once X : NoDup X -> once X.
Proof. intros H i. apply (NoDup_count_occ Nat.eq_dec). exact H. Qed.
Ltac disjoint :=
  cbn [In] in *; rewrite ?in_app_iff in *;
  repeat match goal with
  | H : ?a = _ |- _ => is_var a; subst a
  | H : _ = ?a |- _ => is_var a; subst a
  | H : In _ _ |- _ => apply cnt_in in H
  | H : ~ In _ _ |- _ => apply cnt_not in H
  end;
  repeat match goal with
  | H : once _, i : _ |- _ => match type of i with nat => idtac | ref => idtac end; lazymatch goal with _ : 0 < cnt _ i |- _ => idtac end; let K := fresh "K" in pose proof (H i) as K; clear H
  end;
  rewrite ?cnt_app, ?cnt_cons, ?cnt_nil in *; rewrite ?Nat.eqb_refl in *; try lia.
Lemma once_l X Y : once (X ++ Y) -> once X.
Proof. intros H i. specialize (H i). rewrite cnt_app in H. lia. Qed.
Lemma once_r X Y : once (X ++ Y) -> once Y.
Proof. intros H i. specialize (H i). rewrite cnt_app in H. lia. Qed.
Lemma once_tl r X : once (r :: X) -> once X.
Proof. intros H i. specialize (H i). rewrite cnt_cons in H. lia. Qed.
Lemma once_hd r X : once (r :: X) -> ~ In r X.
Proof. intros H I. specialize (H r). rewrite cnt_cons, Nat.eqb_refl in H. apply cnt_in in I. lia. Qed.
Lemma once_apart X Y i : once (X ++ Y) -> In i X -> ~ In i Y.
Proof. intros H I J. specialize (H i). rewrite cnt_app in H. apply cnt_in in I, J. lia. Qed.
Lemma once_apart' X Y i : once (X ++ Y) -> In i Y -> ~ In i X.
Proof. intros H I J. eapply once_apart; eassumption. Qed.

Lemma moves_f h h' Z X r F : moves h h' Z -> at_f h X r F -> (forall i, In i X -> ~ In i Z) -> at_f h' X r F.
Proof. intros M. apply keeps_f, mv_keeps, M. Qed.
Lemma moves_p h h' Z X r F : moves h h' Z -> at_p h X r F -> (forall i, In i X -> ~ In i Z) -> at_p h' X r F.
Proof. intros M. apply keeps_p, mv_keeps, M. Qed.
Lemma moves_t h h' Z X r F : moves h h' Z -> at_t h X r F -> (forall i, In i X -> ~ In i Z) -> at_t h' X r F.
Proof. intros M. apply keeps_t, mv_keeps, M. Qed.
Lemma moves_r h h' Z X r F : moves h h' Z -> at_r h X r F -> (forall i, In i X -> ~ In i Z) -> at_r h' X r F.
Proof. intros M. apply keeps_r, mv_keeps, M. Qed.
Lemma moves_cell h h' Z i c : moves h h' Z -> nth_error h i = Some c -> ~ In i Z -> nth_error h' i = Some c.
Proof. intros M E N. eapply k_same; [apply M|exact E|exact N]. Qed.

(** ** addHoa *)

Lemma merge_in l r y : In y (merge l r) <-> In y l \/ In y r.
Proof. apply merge_union. Qed.
Lemma same_existsb m l l' : (forall y, In y l <-> In y l') -> existsb (Nat.eqb m) l = existsb (Nat.eqb m) l'.
Proof.
  intros H. apply eq_true_iff_eq. rewrite !existsb_exists. split; intros (x & I & E); exists x; (split; [apply H, I|exact E]).
Qed.

Lemma hoa_property h r p : rprop h r p -> forall f s u s', x_heap s = h -> add_hoa f r None s = Ok (u, s') -> s' = s /\ forall y, In y u <-> In y (numbers_s p).
Proof.
  intros R. induction R as [r n E|r t T|r x y p q E R1 IH1 R2 IH2]; intros [|f] s u s' Hs H; try discriminate; cbn [add_hoa] in H; minv H; apply get_inv in E0 || apply get_inv in E; subst h.
  - destruct E0 as [-> K]. rewrite E in K. injection K as <-. minv H. subst. split; [reflexivity|tauto].
  - destruct E as [-> K]. destruct T as [r n d g E _|r n E]; rewrite E in K; injection K as <-; minv H; subst; (split; [reflexivity|]); cbn; tauto.
  - destruct E0 as [-> K]. rewrite E in K. injection K as <-. minv H. destruct (IH1 _ _ _ _ eq_refl E0) as (-> & U1). minv H. destruct (IH2 _ _ _ _ eq_refl E1) as (-> & U2).
    minv H. subst. split; [reflexivity|]. intros z. cbn [numbers_s]. rewrite merge_in, in_app_iff, U1, U2. reflexivity.
Qed.

Definition restricted (h : heap) (b : option ref) (x : option nat) : Prop := optional (num h) b x.
Definition hoa_f (f : nat) : Prop := forall r b s u s' X F x, add_hoa f r b s = Ok (u, s') -> at_f (x_heap s) X r F -> once X -> restricted (x_heap s) b x ->
  at_f (x_heap s') X r (fill x F) /\ moves (x_heap s) (x_heap s') X /\ forall y, In y u <-> In y (numbers F).
Definition hoa_p (f : nat) : Prop := forall r s u s' X p, add_hoa f r None s = Ok (u, s') -> at_p (x_heap s) X r p -> once X ->
  at_p (x_heap s') X r (fill_p p) /\ moves (x_heap s) (x_heap s') X /\ forall y, In y u <-> In y (numbers_p p).
Definition hoa_t (f : nat) : Prop := forall r s u s' X a, add_hoa f r None s = Ok (u, s') -> at_t (x_heap s) X r a -> once X ->
  at_t (x_heap s') X r (fill_t a) /\ moves (x_heap s) (x_heap s') X /\ forall y, In y u <-> In y (numbers_t a).

Lemma hoa_row f : hoa_t f -> forall l xs u0 s u s' X, used_args (fun a => add_hoa f a None) xs u0 s = Ok (u, s') -> at_r (x_heap s) X xs l -> once X ->
  at_r (x_heap s') X xs (fill_r l) /\ moves (x_heap s) (x_heap s') X /\ forall y, In y u <-> In y u0 \/ In y (numbers_r l).
Proof.
  intros T. induction l as [|l IH|a l IH]; intros xs u0 s u s' X H A O; inversion A; subst; cbn [used_args] in H.
  - minv H. subst. split; [constructor|]. split; [apply moves_refl|]. intros y. cbn. tauto.
  - destruct (IH _ _ _ _ _ _ H ltac:(eassumption) O) as (A' & M & U). split; [constructor; exact A'|]. split; [exact M|exact U].
  - minv H. destruct (T _ _ _ _ _ _ E ltac:(eassumption) (once_l _ _ O)) as (A1 & M1 & U1).
    assert (A2 := moves_r _ _ _ _ _ _ M1 ltac:(eassumption) (fun i => once_apart' _ _ i O)).
    destruct (IH _ _ _ _ _ _ H A2 (once_r _ _ O)) as (A3 & M2 & U2). split; [|split].
    + cbn [fill_r]. constructor; [|exact A3]. eapply moves_t; [exact M2|exact A1|]. intros i. apply (once_apart _ _ i O).
    + eapply moves_trans; [exact M1|exact M2|]. intros i. rewrite in_app_iff. tauto.
    + intros y. cbn [numbers_r]. rewrite U2, merge_in, in_app_iff, U1. tauto.
Qed.

Lemma numbers_nil p y : In y (numbers_p p) <-> In y (numbers (Says p Nil)).
Proof. cbn. rewrite app_nil_r. reflexivity. Qed.

Lemma hoa_all f : hoa_f f /\ hoa_p f /\ hoa_t f.
Proof.
  induction f as [|f (IHf & IHp & IHt)]; [split; [|split]; repeat intro; discriminate|]. split; [|split].
  - intros r b s u s' X F x H A O Rb. inversion A; subst; cbn [add_hoa] in H; minv H; apply get_inv in E; destruct E as [-> E]; match goal with K : nth_error (x_heap s) r = Some _ |- _ => rewrite K in E end; injection E as <-.
    + rename H0 into C, H1 into Ap, H2 into Al, X0 into X. minv H. minv H. rename a into u1, a0 into u2, s0 into s1, s1 into s2.
      destruct (IHp _ _ _ _ _ _ E Ap (once_l _ _ (once_tl _ _ O))) as (Ap1 & M1 & U1).
      assert (Al1 := moves_r _ _ _ _ _ _ M1 Al (fun i => once_apart' _ _ i (once_tl _ _ O))).
      destruct (hoa_row f IHt _ _ _ _ _ _ _ E0 Al1 (once_r _ _ (once_tl _ _ O))) as (Al2 & M2 & U2).
      assert (Ap2 := moves_p _ _ _ _ _ _ M2 Ap1 (fun i => once_apart _ _ i (once_tl _ _ O))).
      assert (M : moves (x_heap s) (x_heap s2) (X ++ Y)) by (eapply moves_trans; [exact M1|exact M2|intros i; rewrite in_app_iff; tauto]).
      assert (C2 := moves_cell _ _ _ _ _ M C (once_hd _ _ O)).
      assert (Mr : moves (x_heap s) (x_heap s2) (r :: X ++ Y)) by (eapply moves_weak; [exact M|intros i I; right; exact I]).
      assert (Un : forall y, In y u2 <-> In y (numbers (Says p l))) by (intros y; cbn [numbers]; rewrite U2, in_app_iff, U1; tauto).
      assert (Plain : s' = s2 -> u = u2 -> at_f (x_heap s') (r :: X ++ Y) r (Says (fill_p p) (fill_r l)) /\ moves (x_heap s) (x_heap s') (r :: X ++ Y) /\ (forall y, In y u <-> In y (numbers (Says p l)))).
      { intros -> ->. split; [econstructor; eassumption|]. split; [exact Mr|exact Un]. }
      inversion Rb as [|bd n Nb]; subst.
      * minv H. subst. cbn [fill]. auto.
      * destruct xs as [|o xs].
        2:{ minv H. subst. replace (fill (Some n) (Says p l)) with (Says (fill_p p) (fill_r l)) by (inversion Al; reflexivity). auto. }
        inversion Al; subst. cbn [fill]. minv H. apply get_inv in E1. destruct E1 as [-> E1]. assert (N2 := k_num _ _ _ (mv_keeps _ _ _ M) _ _ Nb).
        destruct N2 as (q & g & rs & sc & N2). rewrite N2 in E1. injection E1 as <-.
        assert (Ub : forall y, In y u2 <-> In y (numbers_p p)) by (intros y; rewrite numbers_nil; apply Un). rewrite (same_existsb n _ _ Ub) in H.
        destruct (existsb (Nat.eqb n) (numbers_p p)); [minv H; subst; apply Plain; reflexivity|].
        minv H. injection E1 as <- <-. minv H. injection E1 as <-. minv H. subst u s'. cbn [x_heap].
        assert (Mv := moves_snoc (x_heap s2) (CVariable n (Some bd) false) [] eq_refl).
        assert (Cv := moves_cell _ _ _ _ _ Mv C2 (fun x => x)).
        assert (Mp := moves_put _ _ _ (CPredication x0 [Some (length (x_heap s2))]) Cv eq_refl eq_refl eq_refl).
        assert (M3 : moves (x_heap s) (set_nth r (CPredication x0 [Some (length (x_heap s2))]) (x_heap s2 ++ [CVariable n (Some bd) false])) (r :: X ++ [])).
        { eapply moves_trans; [exact Mr|eapply moves_trans; [exact Mv|exact Mp|intros i [[]|I]; exact I]|]. intros i. cbn. tauto. }
        assert (Or : once (r :: X ++ [])) by exact O. rewrite app_nil_r in Or.
        split; [|split; [exact M3|exact Un]]. econstructor.
        -- apply set_nth_same. eapply nth_lt, Cv.
        -- eapply moves_p; [exact Mp|eapply moves_p; [exact Mv|exact Ap2|intros i _ []]|]. intros i I [<-|[]]. eapply once_hd; eassumption.
        -- apply (AtItem _ _ _ _ _ [] []); [|constructor]. constructor. econstructor 1.
           ++ rewrite set_nth_other by (intros ->; apply nth_lt in C2; lia). apply nth_snoc.
           ++ apply (k_num _ _ _ (mv_keeps _ _ _ Mp)), (k_num _ _ _ (mv_keeps _ _ _ Mv)). exists q, g, rs, sc. exact N2.
    + minv H. minv H. minv H. subst. destruct (IHf _ _ _ _ _ _ _ _ E ltac:(eassumption) (once_l _ _ (once_tl _ _ O)) Rb) as (A1 & M1 & U1).
      assert (A2 := moves_f _ _ _ _ _ _ M1 ltac:(eassumption) (fun i => once_apart' _ _ i (once_tl _ _ O))).
      assert (Rb' : restricted (x_heap s0) b x) by (destruct Rb; constructor; apply (k_num _ _ _ (mv_keeps _ _ _ M1)); assumption).
      destruct (IHf _ _ _ _ _ _ _ _ E0 A2 (once_r _ _ (once_tl _ _ O)) Rb') as (A3 & M2 & U2).
      assert (M : moves (x_heap s) (x_heap s') (X0 ++ Y)) by (eapply moves_trans; [exact M1|exact M2|intros i; rewrite in_app_iff; tauto]).
      split; [|split].
      * cbn [fill]. econstructor; [eapply moves_cell; [exact M|eassumption|exact (once_hd _ _ O)]| |exact A3].
        eapply moves_f; [exact M2|exact A1|]. intros i. apply (once_apart _ _ i (once_tl _ _ O)).
      * eapply moves_weak; [exact M|]. intros i I. right. exact I.
      * intros z. cbn [numbers]. rewrite merge_in, in_app_iff, U1, U2. tauto.
    + minv H. minv E. subst. minv H. minv H. subst. destruct (IHf _ _ _ _ _ _ _ None E ltac:(eassumption) (once_tl _ _ O) ltac:(constructor)) as (A1 & M1 & U1).
      split; [|split].
      * cbn [fill]. econstructor; [eapply moves_cell; [exact M1|eassumption|exact (once_hd _ _ O)]|exact A1].
      * eapply moves_weak; [exact M1|]. intros i I. right. exact I.
      * intros z. cbn [numbers]. rewrite merge_in, U1. cbn. tauto.
    + minv H. minv H. minv H. subst.
      destruct (IHf _ _ _ _ _ _ _ (Some n) E ltac:(eassumption) (once_l _ _ (once_tl _ _ O)) ltac:(constructor; eexists _, _, _, _; eassumption)) as (A1 & M1 & U1).
      assert (A2 := moves_f _ _ _ _ _ _ M1 ltac:(eassumption) (fun i => once_apart' _ _ i (once_tl _ _ O))).
      destruct (IHf _ _ _ _ _ _ _ None E0 A2 (once_r _ _ (once_tl _ _ O)) ltac:(constructor)) as (A3 & M2 & U2).
      assert (M : moves (x_heap s) (x_heap s') (X0 ++ Y)) by (eapply moves_trans; [exact M1|exact M2|intros i; rewrite in_app_iff; tauto]).
      split; [|split].
      * cbn [fill]. econstructor; [eapply moves_cell; [exact M|eassumption|exact (once_hd _ _ O)]| |exact A3].
        eapply moves_f; [exact M2|exact A1|]. intros i. apply (once_apart _ _ i (once_tl _ _ O)).
      * eapply moves_weak; [exact M|]. intros i I. right. exact I.
      * intros z. cbn [numbers]. rewrite merge_in, in_app_iff, U1, U2. tauto.
  - intros r s u s' X p H A O. inversion A; subst.
    + match goal with R : rprop _ _ _ |- _ => destruct (hoa_property _ _ _ R _ _ _ _ eq_refl H) as (-> & U); cbn [fill_p numbers_p]; split; [constructor; exact R|split; [apply moves_refl|exact U]] end.
    + cbn [add_hoa] in H. minv H. apply get_inv in E. destruct E as [-> E]. match goal with K : nth_error (x_heap s) r = Some _ |- _ => rewrite K in E end. injection E as <-.
      destruct (IHf _ _ _ _ _ _ _ None H ltac:(eassumption) (once_tl _ _ O) ltac:(constructor)) as (A1 & M1 & U1). split; [|split; [|exact U1]].
      * cbn [fill_p]. econstructor; [eapply moves_cell; [exact M1|eassumption|exact (once_hd _ _ O)]|exact A1].
      * eapply moves_weak; [exact M1|]. intros i I. right. exact I.
  - intros r s u s' X a H A O. inversion A; subst; cbn [add_hoa] in H; minv H; apply get_inv in E; destruct E as [-> E].
    + match goal with T : rthing _ _ _ |- _ => inversion T as [? n d g Ev Nv|? n Ev]; subst end; rewrite Ev in E; injection E as <-; minv H; subst; (split; [constructor; assumption|split; [apply moves_refl|cbn; tauto]]).
    + match goal with K : nth_error (x_heap s) r = Some _ |- _ => rewrite K in E end. injection E as <-. minv H; subst. split; [constructor; assumption|split; [apply moves_refl|cbn; tauto]].
    + match goal with K : nth_error (x_heap s) r = Some _ |- _ => rewrite K in E end. injection E as <-.
      destruct (IHf _ _ _ _ _ _ _ None H ltac:(eassumption) (once_tl _ _ O) ltac:(constructor)) as (A1 & M1 & U1). split; [|split; [|exact U1]].
      * cbn [fill_t]. econstructor; [eapply moves_cell; [exact M1|eassumption|exact (once_hd _ _ O)]|exact A1].
      * eapply moves_weak; [exact M1|]. intros i I. right. exact I.
    + match goal with K : nth_error (x_heap s) r = Some _ |- _ => rewrite K in E end. injection E as <-.
      destruct (hoa_row f IHt _ _ _ _ _ _ _ H ltac:(eassumption) (once_tl _ _ O)) as (A1 & M1 & U1). split; [|split].
      * cbn [fill_t]. econstructor; [eapply moves_cell; [exact M1|eassumption|exact (once_hd _ _ O)]|exact A1].
      * eapply moves_weak; [exact M1|]. intros i I. right. exact I.
      * intros y. rewrite U1. cbn. tauto.
Qed.
