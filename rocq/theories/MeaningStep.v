(** The methods of the interpreter. *)

From Coq Require Import String NArith List Bool Arith Lia.
From Verif Require Import Base PegSyntax Ast AstSorts Logic LogicWords LogicSpec ScopeSpec Interp OrderFacts SeqFacts TermFacts ScopeFacts ScopeInterp ScopeRun Meaning MeaningFacts MeaningNames MeaningRun.
Import ListNotations.
Open Scope string_scope.
Open Scope list_scope.
Open Scope nat_scope.

(** ** hasFreeVars *)

Lemma thing_free h r t y : rthing h r t -> In y (of_thing t) -> exists d, num h d y /\ free h r d.
Proof. intros [r' n d f E N|r' n E]; intros I; [|destruct I]. destruct I as [<-|[]]. exists d. split; [exact N|econstructor 1; exact E]. Qed.
Lemma prop_free h r p y : rprop h r p -> In y (of_property p) -> exists d, num h d y /\ free h r d.
Proof.
  intros H. induction H as [r s E|r t T|r a b p q E Hp IHp Hq IHq]; intros I; [destruct I|eapply thing_free; eassumption|]. cbn [of_property] in I. apply in_app_or in I.
  destruct I as [I|I]; [destruct (IHp I) as (d & N & F)|destruct (IHq I) as (d & N & F)]; exists d; (split; [exact N|]); (econstructor 2; [exact E| |exact F|discriminate]; cbn; auto).
Qed.
Lemma form_free h n : nums h n -> forall r F y, rform h r F -> In y (outside F) -> exists d, num h d y /\ free h r d.
Proof.
  intros Nu r F y H. induction H as [r x xs p l E Hp Ha|r c a b F G E Hf IHf Hg IHg|r q m f s F E Hf IHf|r q m f x s R F E Hr IHr Hf IHf]; cbn [outside]; intros I.
  - apply in_app_or in I. destruct I as [I|I].
    + destruct (prop_free _ _ _ _ Hp I) as (d & N & D). exists d. split; [exact N|]. econstructor 2; [exact E|left; reflexivity|exact D|discriminate].
    + unfold of_args in I. apply in_flat_map in I. destruct I as (o & I & J).
      assert (K : exists z d, In (Some z) xs /\ num h d y /\ free h z d).
      { clear - Ha I J. induction Ha as [|a b l m O Ha IH]; [destruct I|]. destruct I as [->|I].
        - destruct O as [|z t O]; [destruct J|]. cbn in J. rewrite app_nil_r in J. destruct (thing_free _ _ _ _ O J) as (d & N & D). exists z, d. split; [left; reflexivity|auto].
        - destruct (IH I) as (z & d & Z & N & D). exists z, d. split; [right; exact Z|auto]. }
      destruct K as (z & d & Z & N & D). exists d. split; [exact N|]. econstructor 2; [exact E| |exact D|discriminate]. right. apply in_flat_map. exists (Some z). split; [exact Z|left; reflexivity].
  - apply in_app_or in I. destruct I as [I|I]; [destruct (IHf I) as (d & N & D)|destruct (IHg I) as (d & N & D)]; exists d; (split; [exact N|]); (econstructor 2; [exact E| |exact D|discriminate]; cbn; auto).
  - apply filter_In in I. destruct I as [I Ne]. apply negb_true_iff, Nat.eqb_neq in Ne. destruct (IHf I) as (d & N & D). exists d. split; [exact N|].
    econstructor 2; [exact E|left; reflexivity|exact D|]. intros _ ->. destruct N as (q1 & f1 & rs1 & sc1 & N). rewrite E in N. congruence.
  - apply filter_In in I. destruct I as [I Ne]. apply negb_true_iff, Nat.eqb_neq in Ne. apply in_app_or in I.
    destruct I as [I|I]; [destruct (IHr I) as (d & N & D)|destruct (IHf I) as (d & N & D)]; exists d; (split; [exact N|]);
      (econstructor 2; [exact E| |exact D|]; [cbn; auto|]; intros _ ->; destruct N as (q1 & f1 & rs1 & sc1 & N); rewrite E in N; congruence).
Qed.

(** What a scan that finds a free variable has found. *)
Section Scan.
Variables (h : heap) (n0 : nat).
Hypothesis Nu : nums h n0.
Definition found (names : list nat) (bs : list ref) : Prop :=
  exists y d q f rs sc, In y names /\ nth_error h d = Some (CBinding q y f rs sc) /\ q <> QThe /\ ~ In d bs.
Definition scans (names : list nat) (l : list ref) : Prop := forall k bs fl res, free_scan h (l ++ k) bs fl = Ok res ->
  exists bs' fl', free_scan h k bs' fl' = Ok res /\ incl bs bs' /\ (fl' = true -> fl = true \/ found names bs).
Lemma found_weak a b bs bs' : found a bs' -> incl a b -> incl bs bs' -> found b bs.
Proof. intros (y & d & q & f & rs & sc & I & E & Q & N) A B. exists y, d, q, f, rs, sc. auto 8. Qed.
Lemma scans_nil ns : scans ns [].
Proof. intros k bs fl res E. exists bs, fl. split; [exact E|]. split; [apply incl_refl|auto]. Qed.
Lemma scans_app a b l m : scans a l -> scans b m -> scans (a ++ b) (l ++ m).
Proof.
  intros X Y k bs fl res E. rewrite <- app_assoc in E. destruct (X _ _ _ _ E) as (bs1 & fl1 & E1 & I1 & F1). destruct (Y _ _ _ _ E1) as (bs2 & fl2 & E2 & I2 & F2).
  exists bs2, fl2. split; [exact E2|]. split; [eapply incl_tran; eassumption|]. intros T. destruct (F2 T) as [K|K].
  - destruct (F1 K) as [J|J]; [auto|right]. eapply found_weak; [exact J|apply incl_appl, incl_refl|apply incl_refl].
  - right. eapply found_weak; [exact K|apply incl_appr, incl_refl|exact I1].
Qed.
Lemma scans_cons ns r c l : nth_error h r = Some c -> (match c with CBinding _ _ _ _ _ | CVariable _ _ _ => false | _ => true end) = true -> scans ns l -> scans ns (r :: l).
Proof. intros E P X k bs fl res H. cbn [app free_scan] in H. rewrite E in H. destruct c; try discriminate; apply X; exact H. Qed.

Lemma visited_inv f r l c : visited h f r = Ok l -> nth_error h r = Some c -> exists f' v, flat_res (visited h f') (below c) = Ok v /\ l = r :: v.
Proof.
  destruct f as [|f]; [discriminate|]. cbn [visited]. intros E N. rewrite N in E. destruct (flat_res (visited h f) (below c)) as [v| |] eqn:Fl; cbn [bind] in E; try discriminate.
  injection E as <-. exists f, v. auto.
Qed.
Lemma flat_two f a b v : flat_res (visited h f) [a; b] = Ok v -> exists l m, visited h f a = Ok l /\ visited h f b = Ok m /\ v = l ++ m.
Proof.
  cbn [flat_res]. destruct (visited h f a) as [l| |]; cbn [bind]; try discriminate. destruct (visited h f b) as [m| |]; cbn [bind]; try discriminate.
  intros E. injection E as <-. exists l, m. rewrite app_nil_r. auto.
Qed.
Lemma flat_one f a v : flat_res (visited h f) [a] = Ok v -> visited h f a = Ok v.
Proof. cbn [flat_res]. destruct (visited h f a) as [l| |]; cbn [bind]; try discriminate. intros E. injection E as <-. rewrite app_nil_r. reflexivity. Qed.
Lemma flat_cons' f a r v : flat_res (visited h f) (a :: r) = Ok v -> exists l m, visited h f a = Ok l /\ flat_res (visited h f) r = Ok m /\ v = l ++ m.
Proof.
  cbn [flat_res]. destruct (visited h f a) as [l| |]; cbn [bind]; try discriminate. destruct (flat_res (visited h f) r) as [m| |]; cbn [bind]; try discriminate.
  intros E. injection E as <-. exists l, m. auto.
Qed.

Lemma scan_thing r t f l : rthing h r t -> visited h f r = Ok l -> scans (of_thing t) l.
Proof.
  intros T V. destruct T as [r n d fo E (q & f1 & rs & sc & D)|r n E]; destruct (visited_inv _ _ _ _ V E) as (f' & v & Fl & ->); injection Fl as <-; intros k bs fl res H; cbn [app free_scan] in H; rewrite E in H.
  - rewrite D in H. eexists _, _. split; [exact H|]. split; [apply incl_refl|]. intros T. apply orb_prop in T. destruct T as [T|T]; [auto|right].
    apply andb_prop in T. destruct T as [T1 T2]. exists n, d, q, f1, rs, sc. split; [left; reflexivity|]. split; [exact D|]. split; [intros ->; discriminate|].
    intros I. apply negb_true_iff in T2. assert (X : memb d bs = true) by (apply existsb_exists; exists d; split; [exact I|apply Nat.eqb_refl]). congruence.
  - exists bs, fl. split; [exact H|]. split; [apply incl_refl|auto].
Qed.
Lemma scan_prop : forall r p, rprop h r p -> forall f l, visited h f r = Ok l -> scans (of_property p) l.
Proof.
  intros r p H. induction H as [r s E|r t T|r a b p q E Hp IHp Hq IHq]; intros f l V.
  - destruct (visited_inv _ _ _ _ V E) as (f' & v & Fl & ->). injection Fl as <-. eapply scans_cons; [exact E|reflexivity|apply scans_nil].
  - eapply scan_thing; eassumption.
  - destruct (visited_inv _ _ _ _ V E) as (f' & v & Fl & ->). eapply scans_cons; [exact E|reflexivity|]. destruct (flat_two _ _ _ _ Fl) as (l1 & l2 & V1 & V2 & ->).
    cbn [of_property]. apply scans_app; eauto.
Qed.
Lemma scan_opts : forall xs l, Forall2 (optional (rthing h)) xs l -> forall f v, flat_res (visited h f) (flat_map olist xs) = Ok v -> scans (of_args l) v.
Proof.
  intros xs l H. induction H as [|o t xs l O H IH]; intros f v V; [injection V as <-; apply scans_nil|]. destruct O as [|x t O].
  - cbn [flat_map olist app] in V. apply (IH _ _ V).
  - cbn [flat_map olist app] in V. destruct (flat_cons' _ _ _ _ V) as (l1 & l2 & V1 & V2 & ->). unfold of_args. cbn [flat_map olist]. rewrite app_nil_r.
    apply scans_app; [eapply scan_thing; eassumption|]. apply (IH _ _ V2).
Qed.
Lemma scans_bind r q m f rs sc ns l : nth_error h r = Some (CBinding q m f rs sc) -> scans ns l -> scans (filter (fun y => negb (y =? m)) ns) (r :: l).
Proof.
  intros E X k bs fl res H. cbn [app free_scan] in H. rewrite E in H. destruct (X _ _ _ _ H) as (bs' & fl' & E' & I & F). exists bs', fl'. split; [exact E'|].
  split; [intros x K; apply I; right; exact K|]. intros T. destruct (F T) as [K|(y & d & q1 & f1 & rs1 & sc1 & J & D & Q & N)]; [auto|right].
  exists y, d, q1, f1, rs1, sc1. split; [|split; [exact D|split; [exact Q|]]].
  - apply filter_In. split; [exact J|]. apply negb_true_iff, Nat.eqb_neq. intros ->. apply N. left. eapply (u_one _ _ Nu); [exists q, f, rs, sc; exact E|exists q1, f1, rs1, sc1; exact D].
  - intros K. apply N. right. exact K.
Qed.
Lemma scan_form : forall r F, rform h r F -> forall f l, visited h f r = Ok l -> scans (outside F) l.
Proof.
  intros r F H. induction H as [r x xs p l E Hp Ha|r c a b F G E Hf IHf Hg IHg|r q m f s F E Hf IHf|r q m f x s R F E Hr IHr Hf IHf]; intros fu v V;
    destruct (visited_inv _ _ _ _ V E) as (f' & w & Fl & ->); cbn [below] in Fl.
  - eapply scans_cons; [exact E|reflexivity|]. destruct (flat_cons' _ _ _ _ Fl) as (l1 & l2 & V1 & V2 & ->). cbn [outside]. apply scans_app; [eapply scan_prop; eassumption|eapply scan_opts; eassumption].
  - eapply scans_cons; [exact E|reflexivity|]. destruct (flat_two _ _ _ _ Fl) as (l1 & l2 & V1 & V2 & ->). cbn [outside]. apply scans_app; eauto.
  - cbn [outside app olist] in *. eapply scans_bind; [exact E|]. apply flat_one in Fl. eauto.
  - cbn [outside app olist] in *. eapply scans_bind; [exact E|]. destruct (flat_two _ _ _ _ Fl) as (l1 & l2 & V1 & V2 & ->). apply scans_app; eauto.
Qed.
End Scan.

Lemma has_free_inv vf b s fr s' : has_free_vars vf b s = Ok (fr, s') -> s' = s /\ exists l, visited (s_heap s) vf b = Ok l /\ free_scan (s_heap s) l [] false = Ok fr.
Proof.
  unfold has_free_vars. destruct (visited (s_heap s) vf b) as [l| |]; cbn [bind]; try discriminate. destruct (free_scan (s_heap s) l [] false) as [f| |] eqn:E; cbn [bind]; try discriminate.
  intros H. injection H as <- <-. split; [reflexivity|]. eauto.
Qed.

(** hasFreeVars tells whether a variable in scope occurs. *)
Lemma has_free_depends vf s0 s b n f rs R g t fr s' :
  has_free_vars vf b s = Ok (fr, s') -> made s0 s Any b -> nth_error (s_heap s) b = Some (CBinding QThe n f (Some rs) None) -> rform (s_heap s) rs R ->
  said t s -> ctx g s0 -> good s0 ->
  (forall y, In y (outside R) -> In y (vnames g) \/ y = n \/ In y (onames t)) ->
  s' = s /\ fr = depends g R.
Proof.
  intros H M B Fr S C G0 Na. apply has_free_inv in H. destruct H as (-> & l & V & Sc). split; [reflexivity|]. assert (Nu := d_nums _ _ S).
  destruct fr.
  - symmetry. destruct (visited_inv _ _ _ _ _ V B) as (f' & v & Fl & ->). cbn [below olist app] in Fl. apply flat_one in Fl.
    assert (X := scans_bind _ _ Nu _ _ _ _ _ _ _ _ B (scan_form _ _ Nu _ _ Fr _ _ Fl)). destruct (X [] [] false true) as (bs' & fl' & E & _ & K); [rewrite app_nil_r; exact Sc|].
    cbn [free_scan] in E. injection E as ->. destruct (K eq_refl) as [K'|(y & d & q & f1 & rs1 & sc1 & I & D & Q & _)]; [discriminate|].
    apply filter_In in I. destruct I as [I Ne]. apply negb_true_iff, Nat.eqb_neq in Ne. destruct (Na _ I) as [J|[J|J]]; [|contradiction|].
    + unfold depends. apply existsb_exists. unfold vnames in J. apply in_map_iff in J. destruct J as (vb & <- & J). exists vb. split; [exact J|]. apply existsb_exists. exists (snd vb). split; [exact I|apply Nat.eqb_refl].
    + exfalso. unfold onames in J. apply in_map_iff in J. destruct J as (o & <- & J). assert (O := d_outer _ _ S). clear - O J D Q Nu.
      induction O as [|o' z l m (r & E & F) O IH]; [destruct J|]. destruct J as [->|J]; [|apply IH, J].
      assert (d = z) by (eapply (u_one _ _ Nu); [exists q, f1, rs1, sc1; exact D|eexists _, _, _, _; exact E]). subst z. congruence.
  - destruct (depends g R) eqn:De; [|reflexivity]. exfalso. unfold depends in De. apply existsb_exists in De. destruct De as ([v y] & Iv & De). cbn [snd] in De.
    apply existsb_exists in De. destruct De as (y' & Iy & Ey). apply Nat.eqb_eq in Ey. subst y'.
    assert (D : exists d, In (v, d) (s_vars s0) /\ num (s_heap s0) d y).
    { assert (K := k_vars _ _ C). clear - K Iv. induction K as [|[a x] [a' d] l m [E N] K IH]; [destruct Iv|]. cbn in E. subst a'. destruct Iv as [Iv|Iv].
      - injection Iv as <- <-. exists d. split; [left; reflexivity|exact N].
      - destruct (IH Iv) as (d' & X & Y). exists d'. split; [right; exact X|exact Y]. }
    destruct D as (d & Id & Nd). destruct (g_vars _ _ _ _ G0 _ _ Id) as (q & n1 & f1 & rs1 & sc1 & Ed & Q). assert (Ld := nth_lt _ _ _ Ed).
    assert (Ed' := ext_nth _ _ _ _ (m_ext _ _ _ _ M) Ed). apply (num_grows _ _ _ _ (ext_grows _ _ (m_ext _ _ _ _ M))) in Nd.
    destruct (form_free _ _ Nu _ _ _ Fr Iy) as (d' & Nd' & Fd). assert (d' = d) by (eapply (u_one _ _ Nu); eassumption). subst d'.
    assert (Fb : free (s_heap s) b d).
    { econstructor 2; [exact B|left; reflexivity|exact Fd|]. intros _ ->. pose proof (m_new _ _ _ _ M). lia. }
    destruct (visited_free _ _ _ _ _ V Fb) as (w & n2 & fo & I & Nv). destruct (scan_false _ _ _ Sc _ _ _ _ I Nv) as (q1 & n3 & f3 & rs3 & sc3 & N3 & [X|[[]|X]]); [congruence|].
    apply (visited_reach _ _ _ _ _ V) in X. eapply reach_new in X; [|exact (g_wf _ _ _ _ (m_good _ _ _ _ M))|exact (e_fresh _ _ _ _ _ _ _ _ (m_ext _ _ _ _ M))|left; exact (m_new _ _ _ _ M)].
    destruct X as [X|X]; [lia|]. apply X. eexists. split; [exact Ed'|reflexivity].
Qed.
