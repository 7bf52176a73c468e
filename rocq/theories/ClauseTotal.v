(** Interpret and String return for sentences with clauses. *)

From Coq Require Import String NArith List Bool Arith Lia.
From Verif Require Import Base Utf8 PegSyntax Tone Ast AstSorts Logic LogicWords LogicSpec LogicString ScopeSpec Interp OrderFacts SeqFacts TermFacts LogicApi ScopeFacts ScopeInterp ScopeRun Meaning MeaningFacts Clauses ClauseHeap ClauseHoa ClauseSimp ClauseRun ClauseStep ClauseBind ClauseSpecs ClauseArgs ClauseFront ClauseEnd ScopeEnds ClauseEnds ClauseHalt.
From Verif Require Simplify MeaningEnd MeaningApi ScopeSimp ScopeTotal LogicFuel LogicSafe Parser.
Import ListNotations.
Open Scope string_scope.
Open Scope list_scope.
Open Scope nat_scope.

(** ** discourse *)

Section Discourse.
Variables (U : unicode) (ol : list (N * N)).
Notation cov := (covered U ol).
Definition cov_items (d : list node) : Prop := forall n, In n d -> sentence_item n -> cov n = true.

Lemma items_halt : forall d o s t W oF, cov_items d -> steps st0 told0 [] [] s t W -> s_vars s = [] -> optional (fun x F => did scene0 told0 st0 [] s t W x F) o oF ->
  ends (fun v f => all_items U ol v f d o) s.
Proof.
  induction d as [|n d IHd]; intros o s t W oF Fo S Ev R; cbn [all_items]; [apply ends_const; discriminate|].
  assert (Fo' : cov_items d) by (intros m J; apply Fo; right; exact J).
  destruct (is_fragment n); [eapply IHd; eassumption|]. destruct (is_sentence n) eqn:Sn; [|apply ends_const; discriminate]. apply MeaningEnd.item_sentence in Sn.
  assert (Fn : cov n = true) by (apply Fo; [left; reflexivity|exact Sn]).
  assert (C : ctx scene0 s) by (eapply ctx_ran; [exact ctx0|exact (z_ran _ _ _ _ _ _ _ S)|exact Ev]).
  eapply ends_bind; [eapply (h_sent _ _ _ (run_halts U ol (Datatypes.S (4 * size n)))); [lia|exact Fn|exact C|exact (z_now S)]|]. intros x s1 Y.
  destruct (y_sent _ _ _ _ _ _ _ _ Y Fn C (z_now S)) as (F & t1 & W1 & D1 & V1). inversion R as [K1 K2|x0 G0 R0 K1 K2]; subst.
  - assert (D := did_after _ _ _ _ _ _ _ _ _ _ _ _ S D1). eapply IHd; [exact Fo'|exact (did_steps _ _ _ _ _ _ _ _ _ D)|congruence|constructor; exact D].
  - eapply (ends_bind (fun _ _ => _)); [apply ends_const; discriminate|]. intros z s2 Z. apply yields_const in Z.
    destruct (did_conn _ _ _ _ _ _ _ _ _ _ _ _ _ _ _ _ _ R0 D1 Z) as (D & V). eapply IHd; [exact Fo'|exact (did_steps _ _ _ _ _ _ _ _ _ D)|congruence|constructor; exact D].
Qed.

Definition pend (h : heap) (l : list ref) : Prop := NoDup l /\ forall b, In b l -> exists q n f rs, nth_error h b = Some (CBinding q n f rs None).
Lemma outers_pend h W o l : outers h W o l -> once W -> pend h l /\ forall b, In b l -> In b W.
Proof.
  induction 1 as [|b x rs R l m Y W B A O IH]; intros On; [split; [split; [constructor|intros b []]|intros b []]|].
  assert (On' : once W) by exact (once_r _ _ (once_tl _ _ On)). destruct (IH On') as ((N & P) & I). split; [split|].
  - constructor; [|exact N]. intros J. apply (once_hd _ _ On), in_or_app. right. apply I, J.
  - intros c [<-|J]; [eauto 8|apply P, J].
  - intros c [<-|J]; [left; reflexivity|right; apply in_or_app; right; apply I, J].
Qed.
Lemma bind_all_halts : forall l r s, pend (s_heap s) l -> ends (fun v _ => bind_all v (rev l) (Some r)) s.
Proof.
  intros l. induction l as [|b l IHl] using rev_ind; intros r s [N P]; [apply ends_const; discriminate|].
  rewrite rev_unit. cbn [bind_all]. destruct (P b ltac:(apply in_or_app; right; left; reflexivity)) as (q & n & f & rs & B).
  apply (ends_bind (fun v _ => bind_scope v (Some b) r)); [eapply bind_scope_ends, B|]. intros z s1 Y. apply yields_some in Y. destruct Y as (v & f' & Y).
  assert (K : forall c, c <> b -> nth_error (s_heap s1) c = nth_error (s_heap s) c).
  { unfold bind_scope in Y. destruct v as [|v]; [discriminate|]. cbn [bind_scope_fuel] in Y. minv Y. apply get_binding_ok in E. destruct E as [-> B0].
    rewrite B in B0. injection B0 as Hq Hn Hf Hr Hs. rewrite <- Hs in Y. minv Y. minv Y. subst.
    apply set_scope_ok in E. destruct E as (q1 & n1 & f1 & r1 & c1 & B1 & ->). intros c Nc. cbn [put with_heap s_heap]. apply set_nth_other. auto. }
  apply NoDup_remove in N. rewrite app_nil_r in N. destruct N as [N Nb]. apply IHl. split; [exact N|].
  intros c J. rewrite K by (intros ->; exact (Nb J)). apply P, in_or_app. left. exact J.
Qed.

Lemma discourse_halts d : cov_items d -> ends (fun v f => discourse U ol v f d) st0.
Proof.
  intros Fo. unfold discourse. eapply ends_bind; [eapply items_halt with (oF := None); [exact Fo|exact (steps_refl _ _ _ said0)|reflexivity|constructor]|]. intros o s Y. apply yields_some in Y. destruct Y as (v & f & Y).
  eapply (ends_bind (fun _ _ => _)); [apply ends_const; discriminate|]. intros the s1 Z. apply yields_const in Z. injection Z as <- <-. destruct o as [r|].
  - destruct (items_clauses _ _ _ _ _ _ _ _ _ _ _ None Y Fo (steps_refl _ _ _ said0) eq_refl ltac:(constructor)) as (oF & t & W & It & Op & S).
    apply bind_all_halts. eapply outers_pend; [exact (d_outer _ _ _ (z_now S))|]. destruct S as [_ _ _ _ (V & EV & F)]. cbn in EV. subst W. intros i. specialize (F i). cbn [app] in F. lia.
  - destruct (rev (s_the s)); cbn [bind_all]; apply ends_const; discriminate.
Qed.
End Discourse.

(** ** The size of formulas *)

Fixpoint cost_s (p : property) : nat := match p with Serial a b => S (cost_s a + cost_s b) | _ => 1 end.
Fixpoint cost (F : form) : nat :=
  match F with
  | Says p l => S (match p with Simple p => cost_s p | Abstract A => S (cost A) end + cost_r l)
  | Joined _ F G => S (cost F + cost G)
  | Binds _ _ _ G => S (cost G)
  | Limits _ _ _ R G => S (cost R + cost G)
  end
with cost_t (a : term) : nat :=
  match a with
  | That F => S (cost F)
  | Several l => S (cost_r l)
  | _ => 1
  end
with cost_r (l : row) : nat :=
  match l with
  | Nil => 0
  | Gap l => cost_r l
  | Item a l => cost_t a + cost_r l
  end.
Definition cost_p (p : prop) : nat := match p with Simple p => cost_s p | Abstract A => S (cost A) end.
Lemma cost_says p l : cost (Says p l) = S (cost_p p + cost_r l). Proof. reflexivity. Qed.
Lemma cost_peel : forall k l V A, cost (fst (peel k l V A)) <= cost A.
Proof.
  induction k as [|k IH]; intros l V A; [destruct A; cbn; lia|]. destruct A; cbn [peel fst]; try lia.
  destruct l; (eapply Nat.le_trans; [apply IH|]); cbn [cost]; lia.
Qed.

(** ** addHoa *)

Notation nf_bind := ScopeTotal.nf_bind.
Notation nf_get := ScopeTotal.nf_get.

Section Hoa.
Import Simplify.
Lemma hoa_property_ends h r p : rprop h r p -> forall f s, x_heap s = h -> cost_s p <= f -> add_hoa f r None s <> NoFuel.
Proof.
  induction 1 as [r n E|r t T|r x y p q E R1 IH1 R2 IH2]; intros [|f] s Hs L; cbn [cost_s] in L; try lia; cbn [add_hoa]; apply nf_get; intros c E'; rewrite Hs in E'.
  - rewrite E in E'. injection E' as <-. discriminate.
  - destruct T as [? ? ? ? E _|? ? E]; rewrite E in E'; injection E' as <-; discriminate.
  - rewrite E in E'. injection E' as <-. apply nf_bind; [apply IH1; [exact Hs|lia]|]. intros u s1 A. destruct (hoa_property _ _ _ R1 _ _ _ _ Hs A) as (-> & _).
    apply nf_bind; [apply IH2; [exact Hs|lia]|]. discriminate.
Qed.
Lemma hoa_row_ends f : (forall r s X a, at_t (x_heap s) X r a -> once X -> cost_t a <= f -> add_hoa f r None s <> NoFuel) ->
  forall l xs u0 s X, at_r (x_heap s) X xs l -> once X -> cost_r l <= f -> used_args (fun a => add_hoa f a None) xs u0 s <> NoFuel.
Proof.
  intros T. induction l as [|l IH|a l IH]; intros xs u0 s X A O L; inversion A; subst; cbn [used_args cost_r] in *; [discriminate|eapply IH; eassumption|].
  apply nf_bind; [eapply T; [eassumption|exact (once_l _ _ O)|lia]|]. intros u s1 E.
  match goal with K : at_t _ _ _ _ |- _ => destruct (proj2 (proj2 (ClauseHoa.hoa_all f)) _ _ _ _ _ _ E K (once_l _ _ O)) as (_ & M & _) end.
  eapply IH; [eapply moves_r; [exact M|eassumption|intros i; apply (once_apart' _ _ i O)]|exact (once_r _ _ O)|lia].
Qed.
Lemma hoa_halts f :
  (forall r b s X F x, at_f (x_heap s) X r F -> once X -> restricted (x_heap s) b x -> cost F <= f -> add_hoa f r b s <> NoFuel) /\
  (forall r s X p, at_p (x_heap s) X r p -> once X -> cost_p p <= f -> add_hoa f r None s <> NoFuel) /\
  (forall r s X a, at_t (x_heap s) X r a -> once X -> cost_t a <= f -> add_hoa f r None s <> NoFuel).
Proof.
  induction f as [|f (IHf & IHp & IHt)].
  { split; [|split].
    - intros r b s X F x A O Rb L. destruct F; cbn in L; lia.
    - intros r s X p A O L. destruct p as [[]|]; cbn in L; lia.
    - intros r s X a A O L. destruct a; cbn in L; lia. }
  split; [|split].
  - intros r b s X F x A O Rb L. cbn [add_hoa]. apply nf_get. intros c E. inversion A; subst; match goal with K : nth_error (x_heap s) r = Some ?c0 |- _ => assert_fails (is_var c0); rewrite K in E end; injection E as <-.
    + rename H into C, H0 into Ap, H1 into Al, X0 into X. rewrite cost_says in L.
      apply nf_bind; [eapply IHp; [exact Ap|exact (once_l _ _ (once_tl _ _ O))|lia]|]. intros u s1 E.
      destruct (proj1 (proj2 (ClauseHoa.hoa_all f)) _ _ _ _ _ _ E Ap (once_l _ _ (once_tl _ _ O))) as (_ & M1 & _).
      apply nf_bind; [eapply (hoa_row_ends f IHt l); [ |exact (once_r _ _ (once_tl _ _ O))|lia]|].
      { eapply moves_r; [exact M1|exact Al|intros i; apply (once_apart' _ _ i (once_tl _ _ O))]. }
      intros w s2 _. destruct b as [bd|], xs; try discriminate. apply nf_get. intros cb _. destruct cb; try discriminate. destruct (existsb _ _); discriminate.
    + cbn [cost] in L. apply nf_bind; [eapply IHf; [eassumption|exact (once_l _ _ (once_tl _ _ O))|eassumption|lia]|]. intros u s1 E.
      destruct (proj1 (ClauseHoa.hoa_all f) _ _ _ _ _ _ _ _ E ltac:(eassumption) (once_l _ _ (once_tl _ _ O)) Rb) as (_ & M1 & _).
      apply nf_bind; [|discriminate]. eapply IHf with (x := x); [eapply moves_f; [exact M1|eassumption|intros i; apply (once_apart' _ _ i (once_tl _ _ O))]|exact (once_r _ _ (once_tl _ _ O))| |lia].
      destruct Rb; constructor; apply (k_num _ _ _ (mv_keeps _ _ _ M1)); assumption.
    + cbn [cost] in L. apply nf_bind; [discriminate|]. intros u s1 E. injection E as <- <-. apply nf_bind; [|discriminate]. eapply IHf with (x := None); [eassumption|exact (once_tl _ _ O)|constructor|lia].
    + cbn [cost] in L. assert (Rb' : restricted (x_heap s) (Some r) (Some n)) by (constructor; eexists _, _, _, _; eassumption).
      apply nf_bind; [eapply IHf; [eassumption|exact (once_l _ _ (once_tl _ _ O))|exact Rb'|lia]|]. intros u s1 E.
      destruct (proj1 (ClauseHoa.hoa_all f) _ _ _ _ _ _ _ _ E ltac:(eassumption) (once_l _ _ (once_tl _ _ O)) Rb') as (_ & M1 & _).
      apply nf_bind; [|discriminate]. eapply IHf with (x := None); [eapply moves_f; [exact M1|eassumption|intros i; apply (once_apart' _ _ i (once_tl _ _ O))]|exact (once_r _ _ (once_tl _ _ O))|constructor|lia].
  - intros r s X p A O L. inversion A; subst; cbn [cost_p] in L.
    + eapply hoa_property_ends; [eassumption|reflexivity|exact L].
    + cbn [add_hoa]. apply nf_get. intros c E. match goal with K : nth_error (x_heap s) r = Some ?c0 |- _ => assert_fails (is_var c0); rewrite K in E end. injection E as <-.
      eapply IHf with (x := None); [eassumption|exact (once_tl _ _ O)|constructor|lia].
  - intros r s X a A O L. cbn [add_hoa]. apply nf_get. intros c E. inversion A; subst; cbn [cost_t] in L.
    + match goal with T : rthing _ _ _ |- _ => inversion T as [? n d g Ev Nv|? n Ev]; subst end; rewrite Ev in E; injection E as <-; discriminate.
    + match goal with K : nth_error (x_heap s) r = Some ?c0 |- _ => assert_fails (is_var c0); rewrite K in E end. injection E as <-. discriminate.
    + match goal with K : nth_error (x_heap s) r = Some ?c0 |- _ => assert_fails (is_var c0); rewrite K in E end. injection E as <-.
      eapply IHf with (x := None); [eassumption|exact (once_tl _ _ O)|constructor|lia].
    + match goal with K : nth_error (x_heap s) r = Some ?c0 |- _ => assert_fails (is_var c0); rewrite K in E end. injection E as <-.
      eapply hoa_row_ends; [exact IHt|eassumption|exact (once_tl _ _ O)|lia].
Qed.
End Hoa.

(** ** Simplify *)

Section Simp.
Import Simplify.
Variable pv : list nat.
Notation simplify := (Simplify.simplify pv).

Lemma lambdas_halts h : forall f r X F, at_f h X r F -> cost F < f -> lambdas f h r <> NoFuel.
Proof.
  induction f as [|f IH]; intros r X F A L; [lia|]. cbn [lambdas]. inversion A; subst; match goal with K : nth_error h r = Some ?c0 |- _ => assert_fails (is_var c0); rewrite K end; try discriminate.
  - destruct q; try discriminate. apply ScopeTotal.nfr_bind; [|discriminate]. cbn [cost] in L. eapply IH; [eassumption|lia].
  - destruct q; discriminate.
Qed.
Lemma bind_args_halts : forall k args r s, bind_args k args r s <> NoFuel.
Proof.
  induction k as [|k IH]; intros args r s; cbn [bind_args]; [discriminate|]. apply nf_get. intros c _. destruct c; try discriminate. destruct scope; try discriminate. destruct args; try discriminate.
  apply nf_bind; [discriminate|]. intros u s1 _. apply IH.
Qed.
Lemma node_halts f k x s : simplify f k x s <> NoFuel -> (do o <- simplify f k x; match o with Some y => ret y | None => crash end) s <> NoFuel.
Proof. intros N. apply nf_bind; [exact N|]. intros [y|] s' _; discriminate. Qed.
Lemma simp_property_ends h r p : rprop h r p -> forall f s, x_heap s = h -> cost_s p <= f -> simplify f RPredicate r s <> NoFuel.
Proof.
  induction 1 as [r n E|r t T|r x y p q E R1 IH1 R2 IH2]; intros [|f] s Hs L; cbn [cost_s] in L; try lia; cbn [Simplify.simplify]; apply nf_get; intros c E'; rewrite Hs in E'.
  - rewrite E in E'. injection E' as <-. discriminate.
  - destruct T as [? ? ? ? E _|? ? E]; rewrite E in E'; injection E' as <-; discriminate.
  - rewrite E in E'. injection E' as <-. apply nf_bind; [apply node_halts, IH1; [exact Hs|lia]|]. intros u s1 A. apply node_inv in A. destruct (simp_property _ _ _ _ R1 _ _ _ _ Hs A) as (_ & ->).
    apply nf_bind; [apply node_halts, IH2; [exact Hs|lia]|]. discriminate.
Qed.
Definition halt_t (f : nat) : Prop := forall r s X a V (Y : ref -> Prop), at_t (x_heap s) X r a -> once X -> (forall i, In i X -> ~ Y i) -> values_at (x_heap s) Y (x_sub s) V -> cost_t a <= f ->
  simplify f RArgument r s <> NoFuel.
Lemma simp_row_ends f : halt_t f -> forall l xs s X V (Y : ref -> Prop), at_r (x_heap s) X xs l -> once X -> (forall i, In i X -> ~ Y i) -> values_at (x_heap s) Y (x_sub s) V -> cost_r l <= f ->
  map_args (simplify f RArgument) xs s <> NoFuel.
Proof.
  intros T. assert (IT := proj2 (proj2 (simp_all pv f))). induction l as [|l IH|a l IH]; intros xs s X V Y A O D Va L; inversion A as [|ys m Z B|x ys t m Z1 Z2 At B]; subst; cbn [map_args cost_r] in *.
  - discriminate.
  - apply nf_bind; [eapply IH; eassumption|]. discriminate.
  - apply nf_bind; [eapply T; [exact At|exact (once_l _ _ O)| |exact Va|lia]|]. { intros i I. apply D, in_or_app. auto. }
    intros o s1 E. destruct (IT _ _ _ _ _ _ V Y E At (once_l _ _ O)) as (Oa & V1 & M1). { intros i I. apply D, in_or_app. auto. } { exact Va. }
    apply nf_bind; [|discriminate]. eapply (IH _ _ Z2 _ (plus Y Z1)); [|exact (once_r _ _ O)| |exact V1|lia].
    { eapply moves_r; [exact M1|exact B|]. intros i I K. exact (once_apart _ _ _ O K I). }
    intros i I [K|K]; [apply (D i); [apply in_or_app; auto|exact K]|]. exact (once_apart _ _ _ O K I).
Qed.
Lemma simp_members_ends f : halt_t f -> forall l xs s X V (Y : ref -> Prop), at_r (x_heap s) X xs l -> once X -> (forall i, In i X -> ~ Y i) -> values_at (x_heap s) Y (x_sub s) V -> cost_r l <= f ->
  flat_args (simplify f RArgument) xs s <> NoFuel.
Proof.
  intros T. assert (IT := proj2 (proj2 (simp_all pv f))). induction l as [|l IH|a l IH]; intros xs s X V Y A O D Va L; inversion A as [|ys m Z B|x ys t m Z1 Z2 At B]; subst; cbn [flat_args cost_r] in *.
  - discriminate.
  - eapply IH; eassumption.
  - apply nf_bind; [eapply T; [exact At|exact (once_l _ _ O)| |exact Va|lia]|]. { intros i I. apply D, in_or_app. auto. }
    intros o s1 E. destruct (IT _ _ _ _ _ _ V Y E At (once_l _ _ O)) as (Oa & V1 & M1). { intros i I. apply D, in_or_app. auto. } { exact Va. }
    apply nf_bind. { destruct o as [x'|]; [|discriminate]. apply nf_get. intros c _. destruct c; discriminate. }
    intros ws s2 E2. assert (K2 : s2 = s1). { destruct o as [x'|]; [|minv E2; congruence]. minv E2. apply ScopeSimp.get_inv in E0. destruct E0 as [-> _]. destruct a0; minv E2; congruence. }
    subst s2. apply nf_bind; [|discriminate]. eapply (IH _ _ Z2 _ (plus Y Z1)); [|exact (once_r _ _ O)| |exact V1|lia].
    { eapply moves_r; [exact M1|exact B|]. intros i I K. exact (once_apart _ _ _ O K I). }
    intros i I [K|K]; [apply (D i); [apply in_or_app; auto|exact K]|]. exact (once_apart _ _ _ O K I).
Qed.

Lemma simp_halts f :
  (forall r s X F V (Y : ref -> Prop), at_f (x_heap s) X r F -> once X -> (forall i, In i X -> ~ Y i) -> values_at (x_heap s) Y (x_sub s) V -> cost F <= f -> simplify f RStatement r s <> NoFuel) /\
  (forall r s X p V (Y : ref -> Prop), at_p (x_heap s) X r p -> once X -> (forall i, In i X -> ~ Y i) -> values_at (x_heap s) Y (x_sub s) V -> cost_p p <= f -> simplify f RPredicate r s <> NoFuel) /\
  halt_t f.
Proof.
  induction f as [|f (IHf & IHp & IHt)].
  { split; [|split].
    - intros r s X F V Y A O D Va L. destruct F; cbn in L; lia.
    - intros r s X p V Y A O D Va L. destruct p as [[]|]; cbn in L; lia.
    - intros r s X a V Y A O D Va L. destruct a; cbn in L; lia. }
  destruct (simp_all pv f) as (SF & SP & ST). split; [|split].
  - intros r s X F V Y A O D Va L. inversion A; subst; cbn [Simplify.simplify]; apply nf_get; intros c0 E; match goal with K : nth_error (x_heap s) r = Some ?c1 |- _ => assert_fails (is_var c1); rewrite K in E end; injection E as <-.
    + rename H into C, H0 into Ap, H1 into Al, X0 into X, Y0 into Z. rewrite cost_says in L.
      assert (Oz : once Z) by exact (once_r _ _ (once_tl _ _ O)). assert (Ox : once X) by exact (once_l _ _ (once_tl _ _ O)).
      assert (Dz : forall i, In i Z -> ~ Y i) by (intros i I; apply D; right; apply in_or_app; auto).
      assert (Dx : forall i, In i X -> ~ Y i) by (intros i I; apply D; right; apply in_or_app; auto).
      assert (Rz : ~ plus Y Z r). { intros [K|K]; [apply (D r (or_introl eq_refl) K)|]. apply (once_hd _ _ O), in_or_app. auto. }
      assert (Rx : ~ In r X) by (intros K; apply (once_hd _ _ O), in_or_app; auto).
      assert (XZ : forall i, In i X -> ~ In i Z) by (intros i; apply (once_apart _ _ i (once_tl _ _ O))).
      apply nf_bind; [eapply simp_row_ends; [exact IHt|exact Al|exact Oz|exact Dz|exact Va|lia]|]. intros a s0 E.
      destruct (simp_row pv f ST _ _ _ _ _ _ V Y E Al Oz Dz Va) as (Z' & Al1 & S1 & V1 & M1). destruct (simple_r pv V l) as [l' W1] eqn:El. cbn [fst snd] in *.
      assert (C1 : nth_error (x_heap s0) r = Some (CPredication x xs)). { eapply moves_cell; [exact M1|exact C|]. intros K. apply Rz. right. exact K. }
      apply nf_bind; [discriminate|]. intros u s2 E0. apply put_state in E0. destruct E0 as [Eh Es].
      assert (Mp := moves_put _ _ _ (CPredication x a) C1 eq_refl eq_refl eq_refl). rewrite <- Eh in Mp.
      assert (Al2 : at_r (x_heap s2) Z' a l'). { eapply moves_r; [exact Mp|exact Al1|]. intros i I [<-|[]]. apply Rz, S1, I. }
      assert (V2 : values_at (x_heap s2) (plus Y Z) (x_sub s2) W1). { rewrite Es. eapply values_move; [exact V1|exact Mp|]. intros i [<-|[]]. exact Rz. }
      assert (M2 : moves (x_heap s) (x_heap s2) (r :: Z)). { eapply moves_trans; [exact M1|exact Mp|]. cbn. tauto. }
      assert (Ap2 : at_p (x_heap s2) X x p). { eapply moves_p; [exact M2|exact Ap|]. intros i I [<-|K]; [exact (Rx I)|exact (XZ _ I K)]. }
      assert (Dx2 : forall i, In i X -> ~ plus Y Z i). { intros i I [K|K]; [exact (Dx _ I K)|exact (XZ _ I K)]. }
      assert (Np : simplify f RPredicate x s2 <> NoFuel) by (eapply IHp; [exact Ap2|exact Ox|exact Dx2|exact V2|lia]).
      apply nf_get. intros pc Ex. inversion Ap2 as [? p' Rp|? y G Xg Ey Ag]; subst.
      * destruct Rp as [? n E'|? v T|? v w p1 p2 E' R1 R2]; [|destruct T as [? n d g E' N|? n E']|];
          rewrite E' in Ex; injection Ex as <-; (apply nf_bind; [apply node_halts, Np|discriminate]).
      * rewrite Ey in Ex. injection Ex as <-. apply nf_bind.
        { apply ScopeTotal.nfr_bind; [|discriminate]. eapply lambdas_halts; [exact Ag|]. cbn [cost_p] in L. lia. }
        intros nl s3 Hl. destruct (lambdas (S f) (x_heap s2) y) as [nl'| |] eqn:Ln; cbn [bind] in Hl; try discriminate. injection Hl as <- <-.
        assert (Ep := lambdas_params _ _ _ _ _ _ Ln Ag). subst nl'. rewrite (given_count _ _ _ _ Al2).
        destruct ((params G =? 0) || negb (given_args l' =? params G)); [apply nf_bind; [apply node_halts, Np|discriminate]|].
        apply nf_bind; [apply bind_args_halts|]. intros z s3 Hb.
        destruct (bind_peel _ _ _ _ _ _ Xg G Z' l' W1 (plus Y Z) Hb Ag Al2 S1 V2 eq_refl) as (Xb & Ab & Cb & Eh' & Vb).
        assert (Cp := cost_peel (params G) l' W1 G). destruct (peel (params G) l' W1 G) as [B W2]. cbn [fst snd] in *.
        assert (Sb : forall i, In i Xb -> In i Xg) by (intros i; rewrite !cnt_in; specialize (Cb i); lia).
        eapply (IHf _ _ Xb B W2 (plus Y Z) Ab); [intros i; specialize (Cb i); specialize (Ox i); rewrite cnt_cons in Ox; lia|intros i I; apply Dx2; right; auto|exact Vb|cbn [cost_p] in L; lia].
    + rename H into C, H0 into A1, H1 into A2, X0 into X, Y0 into Z, F0 into F. cbn [cost] in L.
      assert (Oz : once Z) by exact (once_r _ _ (once_tl _ _ O)). assert (Ox : once X) by exact (once_l _ _ (once_tl _ _ O)).
      assert (Dx : forall i, In i X -> ~ Y i) by (intros i I; apply D; right; apply in_or_app; auto).
      assert (XZ : forall i, In i X -> ~ In i Z) by (intros i; apply (once_apart _ _ i (once_tl _ _ O))).
      assert (Dz : forall i, In i Z -> ~ plus Y X i). { intros i I [K|K]; [apply (D i); [right; apply in_or_app; auto|exact K]|exact (XZ _ K I)]. }
      apply nf_bind; [apply node_halts; eapply IHf; [exact A1|exact Ox|exact Dx|exact Va|lia]|]. intros a s0 E. apply node_inv in E.
      destruct (SF _ _ _ _ _ _ V Y E A1 Ox Dx Va) as (x' & X' & Eo & A1' & S1 & V1 & M1).
      apply nf_bind; [|discriminate]. apply node_halts. eapply (IHf _ _ Z G _ (plus Y X)); [eapply moves_f; [exact M1|exact A2|intros i I K; exact (XZ _ K I)]|exact Oz|exact Dz|exact V1|lia].
    + rename H into C, H0 into A1, X0 into X. cbn [cost] in L.
      assert (Ro : ~ In r X) by exact (once_hd _ _ O). assert (Ry : ~ Y r) by exact (D r (or_introl eq_refl)).
      apply nf_bind; [discriminate|]. intros rs s1 E. injection E as <- <-. apply nf_bind; [discriminate|]. intros u s2 E. apply put_state in E. destruct E as [Eh Es].
      apply nf_bind; [apply ScopeTotal.sub_ends|]. intros b s3 E. unfold sub in E. minv E. subst. apply nf_bind; [|discriminate]. apply node_halts.
      assert (Mp := moves_put _ _ _ (CBinding q n f0 None (Some s0)) C eq_refl eq_refl eq_refl). rewrite <- Eh in Mp.
      eapply (IHf _ _ X G V Y); [eapply moves_f; [exact Mp|exact A1|intros i I [<-|[]]; exact (Ro I)]|exact (once_tl _ _ O)|exact (fun i I => D i (or_intror I))| |lia].
      rewrite Es; eapply values_move; [exact Va|exact Mp|intros i [<-|[]]; exact Ry].
    + rename H into C, H0 into A1, H1 into A2, X0 into X, Y0 into Z. cbn [cost] in L.
      assert (Oz : once Z) by exact (once_r _ _ (once_tl _ _ O)). assert (Ox : once X) by exact (once_l _ _ (once_tl _ _ O)).
      assert (Dx : forall i, In i X -> ~ Y i) by (intros i I; apply D; right; apply in_or_app; auto).
      assert (XZ : forall i, In i X -> ~ In i Z) by (intros i; apply (once_apart _ _ i (once_tl _ _ O))).
      assert (Dz : forall i, In i Z -> ~ plus Y X i). { intros i I [K|K]; [apply (D i); [right; apply in_or_app; auto|exact K]|exact (XZ _ K I)]. }
      assert (Ro : ~ In r (X ++ Z)) by exact (once_hd _ _ O). assert (Ry : ~ Y r) by exact (D r (or_introl eq_refl)).
      assert (Rx : ~ In r X) by (intros K; apply Ro, in_or_app; auto). assert (Rz : ~ In r Z) by (intros K; apply Ro, in_or_app; auto).
      assert (Rn : ~ plus Y X r) by (intros [K|K]; [exact (Ry K)|exact (Rx K)]).
      apply nf_bind; [apply nf_bind; [|discriminate]; apply node_halts; eapply IHf; [exact A1|exact Ox|exact Dx|exact Va|lia]|]. intros rs s1 E. minv E. apply node_inv in E0. minv E. subst. rename E0 into E.
      destruct (SF _ _ _ _ _ _ V Y E A1 Ox Dx Va) as (x' & X' & Eo & A1' & S1 & V1 & M1). injection Eo as ->. destruct (simple pv V R) as [R' W1]. cbn [fst snd] in *.
      apply nf_bind; [discriminate|]. intros u s2 E0. apply put_state in E0. destruct E0 as [Eh Es].
      assert (C1 := moves_cell _ _ _ _ _ M1 C Rx).
      match type of Eh with _ = set_nth _ ?c _ => assert (Mp := moves_put _ _ _ c C1 eq_refl eq_refl eq_refl) end. rewrite <- Eh in Mp.
      assert (A1s : at_f (x_heap s2) X' x' R') by (eapply moves_f; [exact Mp|exact A1'|intros i I [<-|[]]; apply Rn, S1, I]).
      assert (V1s : values_at (x_heap s2) (plus Y X) (x_sub s2) W1) by (rewrite Es; eapply values_move; [exact V1|exact Mp|intros i [<-|[]]; exact Rn]).
      assert (Ms : moves (x_heap s) (x_heap s2) (r :: X)) by (eapply moves_trans; [exact M1|exact Mp|cbn; tauto]).
      assert (A2s : at_f (x_heap s2) Z s0 G) by (eapply moves_f; [exact Ms|exact A2|intros i I [<-|K]; [exact (Rz I)|exact (XZ _ K I)]]).
      apply nf_bind; [apply ScopeTotal.sub_ends|]. intros b s3 E0. destruct (sub_fixes _ _ _ _ _ _ _ _ _ (plus Y X) E0 A1s S1 V1s) as (Ehs & Fx).
      destruct (fixes pv q R') as [[y c]|].
      * destruct Fx as [-> Vf]. eapply (IHf _ _ Z G ((y, Some c) :: W1) (plus Y X)); [rewrite Ehs; exact A2s|exact Oz|exact Dz|exact Vf|lia].
      * destruct Fx as [-> ->]. apply nf_bind; [|discriminate]. apply node_halts. eapply (IHf _ _ Z G W1 (plus Y X)); [exact A2s|exact Oz|exact Dz|exact V1s|lia].
  - intros r s X p V Y A O D Va L. inversion A as [? p' Rp|? y G Xg Ey Ag]; subst; cbn [cost_p] in L.
    + eapply simp_property_ends; [exact Rp|reflexivity|exact L].
    + cbn [Simplify.simplify]. apply nf_get. intros c E. rewrite Ey in E. injection E as <-. apply nf_bind; [|discriminate]. apply node_halts.
      eapply (IHf _ _ Xg G V Y); [exact Ag|exact (once_tl _ _ O)|exact (fun i I => D i (or_intror I))|exact Va|lia].
  - intros r s X a V Y A O D Va L. cbn [Simplify.simplify]. apply nf_get. intros c0 E. inversion A as [? v T|? w g C|? y G Xg Ey Ag|? xs l Xl C Al]; subst; cbn [cost_t] in L.
    + assert (Hv : exists d g, c0 = CVariable (var_number v) d g).
      { destruct (var_cell _ _ _ _ A) as (c & Ec & _ & d & g & ->). rewrite Ec in E. injection E as <-. eauto. }
      destruct Hv as (d & g & ->). apply nf_bind; [discriminate|]. intros [o|] s1 _; discriminate.
    + rewrite C in E. injection E as <-. discriminate.
    + rewrite Ey in E. injection E as <-. apply nf_bind; [|discriminate]. apply node_halts. eapply (IHf _ _ Xg G V Y); [exact Ag|exact (once_tl _ _ O)|exact (fun i I => D i (or_intror I))|exact Va|lia].
    + rewrite C in E. injection E as <-. apply nf_bind; [|discriminate].
      eapply simp_members_ends; [exact IHt|exact Al|exact (once_tl _ _ O)|exact (fun i I => D i (or_intror I))|exact Va|lia].
Qed.
End Simp.

(** ** The depth of what a node shows *)

Fixpoint deep (h : heap) (f : nat) (r : ref) : Prop :=
  match f with
  | 0 => False
  | S f => forall c x, nth_error h r = Some c -> In x (below c) -> deep h f x
  end.
Lemma deep_le h : forall f f' r, f <= f' -> deep h f r -> deep h f' r.
Proof. induction f as [|f IH]; intros [|f'] r L D; try contradiction; [lia|]. intros c x E J. eapply IH; [|exact (D _ _ E J)]. lia. Qed.
Lemma deep_bare h h' : bare h = bare h' -> forall f r, deep h f r -> deep h' f r.
Proof.
  intros B. induction f as [|f IH]; intros r D; [exact D|]. intros c x E J. destruct (ScopeTotal.bare_child h' h r x) as (c' & E' & J'); [congruence|exists c; auto|]. eapply IH, (D _ _ E' J').
Qed.
Lemma deep_thing h r v f : rthing h r v -> deep h (S f) r.
Proof. intros [r' n d g E N|r' n E] c x E' J; rewrite E in E'; injection E' as <-; destruct J. Qed.
Lemma deep_prop h r p : rprop h r p -> forall f, cost_s p <= f -> deep h f r.
Proof.
  induction 1 as [r n E|r t T|r x y p q E R1 IH1 R2 IH2]; intros [|f] L; cbn [cost_s] in L; try lia.
  - intros c z E' J. rewrite E in E'. injection E' as <-. destruct J.
  - eapply deep_thing, T.
  - intros c z E' J. rewrite E in E'. injection E' as <-. destruct J as [<-|[<-|[]]]; [apply IH1|apply IH2]; lia.
Qed.
Lemma deep_at h :
  (forall X r F, at_f h X r F -> forall f, cost F <= f -> deep h f r) /\ (forall X r p, at_p h X r p -> forall f, cost_p p <= f -> deep h f r) /\
  (forall X r a, at_t h X r a -> forall f, cost_t a <= f -> deep h f r) /\ (forall X xs l, at_r h X xs l -> forall f, cost_r l <= f -> forall x, In x (flat_map olist xs) -> deep h f x).
Proof.
  apply at_ind; intros; try rewrite cost_says in *; cbn [cost cost_p cost_t cost_r] in *;
    try match goal with |- deep h ?f _ => destruct f as [|f]; [lia|] end;
    try (intros d z E' J; match goal with K : nth_error h _ = Some ?c1 |- _ => assert_fails (is_var c1); rewrite K in E' end; injection E' as <-; cbn [below olist app In] in J).
  - destruct J as [<-|J]; [match goal with K : forall f, cost_p _ <= f -> _ |- _ => apply K end; lia|]. match goal with K : forall f, cost_r _ <= f -> _ |- _ => eapply K; [|exact J] end. lia.
  - destruct J as [<-|[<-|[]]]; match goal with K : forall f, cost _ <= f -> deep h f ?a |- deep h _ ?a => apply K end; lia.
  - destruct J as [<-|[]]. match goal with K : forall f, cost _ <= f -> deep h f ?a |- deep h _ ?a => apply K end; lia.
  - destruct J as [<-|[<-|[]]]; match goal with K : forall f, cost _ <= f -> deep h f ?a |- deep h _ ?a => apply K end; lia.
  - eapply deep_prop; eassumption.
  - destruct J as [<-|[]]. match goal with K : forall f, cost _ <= f -> deep h f ?a |- deep h _ ?a => apply K end; lia.
  - eapply deep_thing; eassumption.
  - destruct J.
  - destruct J as [<-|[]]. match goal with K : forall f, cost _ <= f -> deep h f ?a |- deep h _ ?a => apply K end; lia.
  - match goal with K : forall f, cost_r _ <= f -> _ |- _ => eapply K; [|exact J] end. lia.
  - destruct H0.
  - auto.
  - match goal with H : In _ (flat_map olist (Some _ :: _)) |- _ => destruct H as [<-|I] end; [match goal with K : forall f, cost_t _ <= f -> _ |- _ => apply K; lia end|]. match goal with K : forall f, cost_r _ <= f -> _ |- _ => eapply K; [|exact I] end. lia.
Qed.
Notation nfr_bind := ScopeTotal.nfr_bind.
Lemma deep_visited h : forall f r, deep h f r -> visited h f r <> NoFuel.
Proof.
  induction f as [|f IH]; intros r D; [destruct D|]. cbn [visited]. destruct (nth_error h r) as [c|] eqn:E; [|discriminate]. apply nfr_bind; [|discriminate].
  assert (Ch : forall x, In x (below c) -> deep h f x) by (intros x J; exact (D _ _ E J)). clear D E. induction (below c) as [|a l IHl]; cbn [flat_res]; [discriminate|].
  apply nfr_bind; [apply IH, Ch; left; reflexivity|]. intros u. apply nfr_bind; [apply IHl; intros x J; apply Ch; right; exact J|]. discriminate.
Qed.

(** ** Interpret *)

Section Ends.
Variable U : unicode.
Notation ol := (o_letters diacritic).
Theorem covered_ends d : (forall n, In n d -> sentence_item n -> covered U ol n = true) -> exists r, outcome U d r.
Proof.
  intros Fo. destruct (discourse_halts U ol d Fo) as (f0 & r0 & N & D).
  assert (K : exists fuel, Simplify.interpret U ol fuel d <> NoFuel).
  { unfold Simplify.interpret. destruct r0 as [[[x|] s]| |]; [|exists f0; rewrite D by lia; discriminate..|congruence].
    assert (D0 := D f0 f0 (le_n _) (le_n _)). destruct (discourse_clauses _ _ _ _ _ _ _ D0 Fo) as (G & t & k & X & It & A & On & _).
    set (F := around (n_outer t) G) in *. set (F1 := fill None F). set (pv := as_predicates F1). set (F2 := fst (simple pv [] F1)).
    exists (f0 + cost F + cost F1 + cost F2). rewrite D by lia. cbn [bind]. set (fu := f0 + cost F + cost F1 + cost F2).
    assert (L0 : cost F <= fu) by (unfold fu; lia). assert (L1 : cost F1 <= fu) by (unfold fu; lia). assert (L2 : cost F2 <= fu) by (unfold fu; lia). clearbody fu.
    unfold Simplify.simplify_statement. assert (H := proj1 (hoa_halts fu) x None (Simplify.SSt (s_heap s) []) X F None A On ltac:(constructor) L0).
    destruct (Simplify.add_hoa fu x None (Simplify.SSt (s_heap s) [])) as [[u s1]| |] eqn:Ha; cbn [bind]; [|discriminate|congruence].
    destruct (proj1 (ClauseHoa.hoa_all fu) _ _ _ _ _ _ _ None Ha A On ltac:(constructor)) as (A1 & M1 & _). fold F1 in A1. cbn [fst snd Simplify.x_heap Simplify.x_sub] in *.
    assert (V := deep_visited _ _ _ (proj1 (deep_at _) _ _ _ A1 _ L1)). unfold Simplify.pred_vars.
    destruct (visited (Simplify.x_heap s1) fu x) as [l| |] eqn:Vl; cbn [bind]; [|discriminate|congruence].
    rewrite (proj1 (pred_vars_at _) _ _ _ A1 _ _ Vl). fold pv.
    assert (Si := proj1 (simp_halts pv fu) x (Simplify.SSt (Simplify.x_heap s1) []) X F1 [] (fun _ => False) A1 On ltac:(auto) ltac:(constructor) L1).
    destruct (Simplify.simplify _ fu Simplify.RStatement x (Simplify.SSt (Simplify.x_heap s1) [])) as [[o s2]| |] eqn:Sm; cbn [bind]; [|discriminate|congruence].
    destruct (proj1 (simp_all _ fu) _ _ _ _ X _ [] (fun _ => False) Sm A1 On ltac:(auto) ltac:(constructor)) as (r' & X' & -> & A2 & _ & _ & M2). fold F2 in A2.
    unfold Simplify.sequence_var_nums. assert (V2 := deep_visited _ _ _ (proj1 (deep_at _) _ _ _ A2 _ L2)).
    destruct (visited (Simplify.x_heap s2) fu r') as [l2| |]; cbn [bind]; [|discriminate|congruence].
    assert (Rn := ScopeTotal.renumber_ends l2 0 (Simplify.x_heap s2)). destruct (Simplify.renumber l2 0 (Simplify.x_heap s2)); cbn [bind]; [discriminate|discriminate|congruence]. }
  destruct K as (fuel & K). exists (Simplify.interpret U ol fuel d). eapply outcome_intro; [reflexivity|exact K].
Qed.
End Ends.

(** ** String *)

Lemma ordered_firm h : ordered h -> firm h.
Proof.
  intros O r. induction r as [r IH] using (well_founded_induction Wf_nat.lt_wf). constructor. intros c x E J. apply IH. eapply O; eassumption.
Qed.
Lemma spine_bare h h' : bare h = bare h' -> forall r, spine h r -> spine h' r.
Proof.
  intros B r H. induction H as [r _ IH]. constructor. intros c x E J. assert (X := ScopeSimp.bare_nth _ _ r B). rewrite E in X. destruct (nth_error h r) as [c'|] eqn:E'; cbn in X; [|discriminate].
  injection X as X. apply (IH c'); [reflexivity|]. destruct c, c'; cbn in X; try discriminate; injection X; intros; subst; exact J.
Qed.
Lemma spine_left h r : spine h r -> exists f0, forall f, f0 <= f -> left_predication h f (Some r) <> NoFuel /\ left_pred h f r <> NoFuel.
Proof.
  induction 1 as [r _ IH]. destruct (nth_error h r) as [c|] eqn:E.
  2:{ exists 1. intros [|f] L; [lia|]. cbn [left_predication left_pred]. rewrite E. split; discriminate. }
  destruct (older c) as [|x [|y [|]]] eqn:O.
  - exists 1. intros [|f] L; [lia|]. cbn [left_predication left_pred]. rewrite E. destruct c; cbn in O; try discriminate; split; discriminate.
  - destruct c; discriminate.
  - destruct (IH _ x eq_refl) as (f1 & E1); [rewrite O; left; reflexivity|]. destruct (IH _ y eq_refl) as (f2 & E2); [rewrite O; right; left; reflexivity|].
    exists (S (f1 + f2)). intros [|f] L; [lia|]. cbn [left_predication left_pred]. rewrite E. destruct (E1 f ltac:(lia)) as [A1 B1]. destruct (E2 f ltac:(lia)) as [A2 B2].
    destruct c; cbn in O; try discriminate; injection O as -> ->; (split; [first [exact A1|discriminate]|]); [discriminate|].
    apply nfr_bind; [exact B1|]. intros [n|]; [|discriminate]. destruct (String.eqb n "shi"); [exact B2|discriminate].
  - destruct c; discriminate.
Qed.
Lemma firm_left h : firm h -> exists f0, forall f, f0 <= f -> forall r, left_predication h f (Some r) <> NoFuel /\ left_pred h f r <> NoFuel.
Proof.
  intros Fm. assert (K : forall n, exists f0, forall f, f0 <= f -> forall r, r < n -> left_predication h f (Some r) <> NoFuel /\ left_pred h f r <> NoFuel).
  { induction n as [|n (f1 & IH)]; [exists 0; intros; lia|]. destruct (spine_left h n (Fm n)) as (f2 & E2). exists (f1 + f2). intros f L r Lr.
    destruct (Nat.eq_dec r n) as [->|]; [apply E2; lia|apply IH; lia]. }
  destruct (K (length h)) as (f0 & E). exists (S f0). intros [|f] L r; [lia|]. destruct (Nat.lt_ge_cases r (length h)) as [Lr|Lr]; [apply E; lia|].
  cbn [left_predication left_pred]. assert (N : nth_error h r = None) by (apply nth_error_None; exact Lr). rewrite N. split; discriminate.
Qed.

Section Show.
Variables (h : heap).
Lemma show_halts pretty names : forall f x, deep h f x -> show pretty names h f x <> NoFuel.
Proof.
  induction f as [|f IH]; intros r L; [destruct L|]. cbn [show]. destruct (nth_error h r) as [c|] eqn:E; [|discriminate].
  assert (Ch : forall x, In x (below c) -> show pretty names h f x <> NoFuel) by (intros x J; apply IH; exact (L _ _ E J)).
  assert (Args : forall l, (forall x, In (Some x) l -> In x (below c)) -> show_args (show pretty names h f) l <> NoFuel) by (intros l H; apply ScopeTotal.args_ends; auto).
  assert (Opt : forall o, (forall x, o = Some x -> In x (below c)) -> show_opt (show pretty names h f) o <> NoFuel) by (intros o H; apply ScopeTotal.opt_ends; auto).
  destruct c; cbn [below] in *; try discriminate.
  - destruct restriction as [x|]; cbn [app] in *.
    + apply nfr_bind; [apply Ch; left; reflexivity|]. intros. apply nfr_bind; [|discriminate]. apply Opt. intros y ->. right. left. reflexivity.
    + apply nfr_bind; [|discriminate]. apply Opt. intros y ->. left. reflexivity.
  - destruct (nth_error h l); [|discriminate]. destruct (nth_error h r0); [|discriminate]. apply nfr_bind; [apply Ch; left; reflexivity|]. intros.
    apply nfr_bind; [apply Ch; right; left; reflexivity|]. discriminate.
  - assert (A : forall x, In (Some x) args -> In x (p :: flat_map (fun a => match a with Some x => [x] | None => [] end) args)).
    { intros x J. right. apply in_flat_map. exists (Some x). split; [exact J|left; reflexivity]. }
    assert (G : bind (show pretty names h f p) (fun n => bind (show_args (show pretty names h f) args) (fun a => Ok (n ++ "(" ++ a ++ ")")%string)) <> NoFuel).
    { apply nfr_bind; [apply Ch; left; reflexivity|]. intros. apply nfr_bind; [apply Args, A|]. discriminate. }
    destruct (nth_error h p) as [[]|]; try exact G. destruct args as [|x [|y [|]]]; try exact G. destruct (is_bin_op name).
    + apply nfr_bind; [apply Opt; intros z ->; apply A; left; reflexivity|]. intros. apply nfr_bind; [apply Opt; intros z ->; apply A; right; left; reflexivity|]. discriminate.
    + apply nfr_bind; [apply Args, A|]. discriminate.
  - apply nfr_bind; [|discriminate]. apply Args. intros x J. apply in_flat_map. exists (Some x). split; [exact J|left; reflexivity].
  - apply nfr_bind; [apply Ch; left; reflexivity|]. discriminate.
  - apply nfr_bind; [apply Ch; left; reflexivity|]. intros. apply nfr_bind; [apply Ch; right; left; reflexivity|]. discriminate.
  - apply nfr_bind; [apply Ch; left; reflexivity|]. discriminate.
Qed.
Variable f : nat.
Hypothesis B : forall r, left_predication h f (Some r) <> NoFuel /\ left_pred h f r <> NoFuel.
Lemma rune_halts U o : var_rune U h f o <> NoFuel.
Proof.
  unfold var_rune. destruct o as [d|]; [|discriminate]. destruct (nth_error h d) as [[]|]; try discriminate. apply nfr_bind.
  - destruct restriction as [x|]; [apply B|]. destruct (B 0) as [b _]. destruct f; [destruct (b eq_refl)|discriminate].
  - intros [p|]; [|discriminate]. apply nfr_bind; [apply B|]. intros [name|]; [|discriminate]. destruct (is_bin_op name); discriminate.
Qed.
Lemma runes_halt U : forall l seen, var_runes U h f l seen <> NoFuel.
Proof.
  induction l as [|r l IH]; intros seen; cbn [var_runes]; [discriminate|]. destruct (nth_error h r) as [[]|]; try apply IH.
  destruct (existsb _ seen); [apply IH|]. apply nfr_bind; [apply rune_halts|]. intros; apply IH.
Qed.
Lemma print_halts U keys pretty r : deep h f r -> print U keys pretty f (Some (r, h)) <> NoFuel.
Proof.
  intros D. unfold print. apply nfr_bind; [apply deep_visited, D|]. intros l. apply nfr_bind; [apply runes_halt|]. intros seen. destruct (_ && _); [apply show_halts, D|].
  apply nfr_bind; [apply ScopeTotal.assign_ends|]. intros names. apply nfr_bind; [apply show_halts, D|]. discriminate.
Qed.
End Show.

Theorem covered_prints U d t : (forall n, In n d -> sentence_item n -> covered U (o_letters diacritic) n = true) -> outcome U d (Ok t) ->
  exists f0, forall keys pretty f, f0 <= f -> print U keys pretty f t <> NoFuel.
Proof.
  intros Fo [_ [fuel O]]. destruct t as [[r h]|]; [|exists 0; discriminate]. specialize (O fuel (le_n _)). unfold Simplify.interpret in O.
  destruct (discourse U (o_letters diacritic) fuel fuel d st0) as [[[x|] s]| |] eqn:D; cbn [bind] in O; try discriminate.
  destruct (discourse_clauses _ _ _ _ _ _ _ D Fo) as (G & t & k & X & It & A & On & Nu & Or). clear D.
  unfold Simplify.simplify_statement in O. destruct (Simplify.add_hoa fuel x None (Simplify.SSt (s_heap s) [])) as [[u s1]| |] eqn:Ha; cbn [bind] in O; try discriminate.
  destruct (proj1 (ClauseHoa.hoa_all fuel) _ _ _ _ _ _ _ None Ha A On ltac:(constructor)) as (A1 & M1 & _). cbn [fst snd Simplify.x_heap Simplify.x_sub] in *.
  unfold Simplify.pred_vars in O. destruct (visited (Simplify.x_heap s1) fuel x) as [l| |] eqn:V; cbn [bind] in O; try discriminate.
  destruct (Simplify.simplify _ fuel Simplify.RStatement x (Simplify.SSt (Simplify.x_heap s1) [])) as [[o s2]| |] eqn:Si; cbn [bind] in O; try discriminate.
  destruct (proj1 (simp_all _ fuel) _ _ _ _ X _ [] (fun _ => False) Si A1 On ltac:(auto) ltac:(constructor)) as (r' & X' & -> & A2 & _ & _ & M2). cbn [Simplify.x_heap] in M2.
  destruct (Simplify.sequence_var_nums fuel (Simplify.x_heap s2) r') as [h2| |] eqn:Sq; cbn [bind] in O; try discriminate. injection O as -> ->.
  assert (B : bare h = bare (Simplify.x_heap s2)).
  { unfold Simplify.sequence_var_nums in Sq. destruct (visited (Simplify.x_heap s2) fuel r) as [l'| |]; cbn [bind] in Sq; try discriminate. eapply renumber_bare, Sq. }
  assert (Fm : firm h). { intros y. eapply spine_bare; [symmetry; exact B|]. apply (mv_firm _ _ _ M2), (mv_firm _ _ _ M1), ordered_firm, Or. }
  destruct (firm_left h Fm) as (f1 & E1). set (c := cost (fst (simple (flat_map (Simplify.pred_var (Simplify.x_heap s1)) l) [] (fill None (around (n_outer t) G))))) in *.
  exists (f1 + c). intros keys pretty f L. apply print_halts; [apply E1; lia|]. eapply deep_bare; [symmetry; exact B|]. eapply (proj1 (deep_at _)); [exact A2|]. unfold c in L. lia.
Qed.

(** ** A parsed text *)

Section Text.
Variables (is_punct : N -> bool) (text : string) (p : Parser.parser) (lead : option node) (d : list node) (U : unicode).
Hypothesis R : Parser.reach is_punct text p.
Hypothesis E : fst (Parser.text_of is_punct p) = Ok (Parser.Got (Some (NText lead d))).
Hypothesis S : forall n, In n d -> is_sentence n = true -> well_sorted n = true /\ supported U n = true /\ covered U (o_letters diacritic) n = true.
Theorem covered_text_returns : exists t, outcome U d (Ok t) /\
  exists f0, forall keys pretty f, f0 <= f -> exists s, print U keys pretty f t = Ok s.
Proof.
  assert (S1 : forall n, In n d -> is_sentence n = true -> well_sorted n = true /\ supported U n = true) by (intros n I J; destruct (S n I J) as (A & B & _); auto).
  assert (Fo : forall n, In n d -> sentence_item n -> covered U (o_letters diacritic) n = true) by (intros n I J; apply (S n I), ScopeTotal.item_sentence, J).
  destruct (covered_ends U d Fo) as ([t|q|] & O).
  - exists t. split; [exact O|]. destruct (covered_prints U d t Fo O) as (f0 & F). exists f0. intros keys pretty f L. specialize (F keys pretty f L).
    assert (P := LogicSafe.text_print_no_panic is_punct text p lead d U R E S1 t O keys pretty f). destruct (print U keys pretty f t) as [s|q|]; [eauto|destruct (P q eq_refl)|congruence].
  - destruct (LogicSafe.text_no_panic is_punct text p lead d U R E S1 q O).
  - destruct O as [N _]. congruence.
Qed.
End Text.
