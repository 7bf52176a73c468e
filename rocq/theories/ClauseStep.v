(** What the parts of a run do together. *)

From Coq Require Import String NArith List Bool Arith Lia.
From Verif Require Import Base PegSyntax Ast AstSorts Logic LogicWords LogicSpec ScopeSpec Interp OrderFacts SeqFacts TermFacts ScopeFacts ScopeInterp ScopeRun Meaning MeaningFacts Clauses ClauseHeap ClauseRun.
From Verif Require MeaningStep MeaningArgs MeaningNames.
Import ListNotations.
Open Scope string_scope.
Open Scope list_scope.
Open Scope nat_scope.

(** ** hasFreeVars *)

Definition sound_var (h : heap) (v : ref) : Prop := forall n d fo, nth_error h v = Some (CVariable n (Some d) fo) -> num h d n.
Lemma sound_other h r c : nth_error h r = Some c -> (forall n d f, c <> CVariable n d f) -> sound_var h r.
Proof. intros E N n d f E'. rewrite E in E'. injection E' as ->. destruct (N _ _ _ eq_refl). Qed.
Lemma sound_thing h r v : rthing h r v -> sound_var h r.
Proof. intros T n d fo E. destruct T as [r m d' f E' N|r m E']; rewrite E in E'; [injection E' as <- <- <-; exact N|discriminate]. Qed.
Lemma sound_one h r v : rthing h r v -> forall f l, visited h f r = Ok l -> Forall (sound_var h) l.
Proof.
  intros T f l V. assert (S := sound_thing _ _ _ T). destruct T; visit; auto.
Qed.
Lemma sound_property h r p : rprop h r p -> forall f l, visited h f r = Ok l -> Forall (sound_var h) l.
Proof.
  intros H. induction H as [r s E|r v T|r x y p q E Hp IHp Hq IHq]; intros f l V.
  - visit. constructor; [|constructor]. eapply sound_other; [exact E|discriminate].
  - eapply sound_one; eassumption.
  - visit. constructor; [eapply sound_other; [exact E|discriminate]|]. rewrite app_nil_r. apply Forall_app. eauto.
Qed.
Lemma sound_at h :
  (forall X r F, at_f h X r F -> forall f l, visited h f r = Ok l -> Forall (sound_var h) l) /\
  (forall X r F, at_p h X r F -> forall f l, visited h f r = Ok l -> Forall (sound_var h) l) /\
  (forall X r F, at_t h X r F -> forall f l, visited h f r = Ok l -> Forall (sound_var h) l) /\
  (forall X xs F, at_r h X xs F -> forall f l, flat_res (visited h f) (flat_map olist xs) = Ok l -> Forall (sound_var h) l).
Proof.
  apply at_ind; intros; cbn [flat_map olist app] in *;
    try (eapply sound_one; eassumption); try (eapply sound_property; eassumption);
    visit; rewrite ?app_nil_r; rewrite ?Forall_app;
    try match goal with |- Forall _ (_ :: _) => constructor; [eapply sound_other; [eassumption|discriminate]|] end; rewrite ?Forall_app; eauto.
Qed.

Lemma events_free g F : existsb (fun b => (snd b : bool) && existsb (fun e => match e with inr y => Nat.eqb (fst b) y | inl _ => false end) (events F)) (v_bound g) = free_in g F.
Proof.
  unfold free_in. assert (E : forall x, existsb (fun e : event => match e with inr y => Nat.eqb x y | inl _ => false end) (events F) = existsb (Nat.eqb x) (occurring F)).
  { intros x. apply eq_true_iff_eq. rewrite !existsb_exists. split.
    - intros ([y|y] & I & K); [discriminate|]. exists y. split; [apply (proj1 events_occurring), I|exact K].
    - intros (y & I & K). exists (inr y). split; [apply (proj1 events_occurring), I|exact K]. }
  induction (v_bound g) as [|b l IH]; [reflexivity|]. cbn [existsb]. rewrite IH, E. reflexivity.
Qed.

(** ** Formulas *)

Lemma at_lt h X r F : at_f h X r F -> r < length h.
Proof. intros A. destruct A; eapply nth_lt; eassumption. Qed.
Lemma prop_lt h r p : rprop h r p -> r < length h.
Proof. intros [? ? E|? ? [? ? ? ? E _|? ? E]|? ? ? ? ? E _ _]; eapply nth_lt, E. Qed.

(** A run that gives a formula. *)
Definition did (g : scene) (t : told) (s : st) (W : list ref) (s' : st) (t' : told) (W' : list ref) (x : ref) (F : form) : Prop :=
  exists X, steps s t W X s' t' W' /\ at_f (s_heap s') X x F /\ fine (inS g t') (events F).

Lemma did_steps g t s W s' t' W' x F : did g t s W s' t' W' x F -> steps s t W [] s' t' W'.
Proof. intros (X & S & _). eapply steps_sub; [exact S|]. intros i. rewrite cnt_nil. lia. Qed.
Lemma inS_next g t t' x : incl (onames t) (onames t') -> inS g t x -> inS g t' x.
Proof. intros I [K|K]; [left; exact K|right; auto]. Qed.
Lemma args_next g t t' l : incl (onames t) (onames t') -> args_in g t l -> args_in g t' l.
Proof. intros I A v k J. specialize (A _ _ J). destruct v; [eapply inS_next; eassumption|exact A]. Qed.
Lemma var_next g g' t t' v : incl (bnames g) (bnames g') -> incl (onames t) (onames t') -> var_in g t v -> var_in g' t' v.
Proof. intros I J. destruct v; cbn; [|auto]. intros [K|K]; [left|right]; auto. Qed.
Lemma args_scope g g' t l : incl (bnames g) (bnames g') -> args_in g t l -> args_in g' t l.
Proof. intros I A v k J. eapply var_next; [exact I|apply incl_refl|eauto]. Qed.
Lemma fine_next g t t' l : incl (onames t) (onames t') -> fine (inS g t) l -> fine (inS g t') l.
Proof. intros I H. eapply fine_weak; [exact H|]. intros x. apply inS_next, I. Qed.

Lemma did_with g t s W s' t' W' x F l : did g t s W s' t' W' x F -> did g t s W (with_vs s' l) t' W' x F.
Proof. intros (X & S & A & Fi). exists X. split; [apply steps_vars, S|auto]. Qed.
Lemma did_start g t s0 s W s' t' W' x F : did g t s0 W s' t' W' x F -> s_heap s0 = s_heap s -> s_n s0 = s_n s -> s_lifted s0 = s_lifted s -> s_the s0 = s_the s ->
  s_hoa s' = s_hoa s -> s_hi s' = s_hi s -> did g t s W s' t' W' x F.
Proof. intros (X & S & A & Fi) H1 H2 H3 H4 H5 H6. exists X. split; [eapply steps_start; eassumption|auto]. Qed.
Lemma did_after g t s W s1 t1 W1 s' t' W' x F : steps s t W [] s1 t1 W1 -> did g t1 s1 W1 s' t' W' x F -> did g t s W s' t' W' x F.
Proof. intros S (X & S1 & A & Fi). exists X. split; [exact (steps_trans _ _ _ _ _ _ _ _ _ _ _ S S1)|auto]. Qed.

Lemma did_conn g t s W s1 t1 W1 x F s2 t2 W2 y G k z s3 : did g t s W s1 t1 W1 x F -> did g t1 s1 W1 s2 t2 W2 y G -> alloc (CConnection k x y) s2 = Ok (z, s3) ->
  did g t s W s3 t2 W2 z (Joined k F G) /\ s_vars s3 = s_vars s2.
Proof.
  intros (X & S & A & Fi) (Y & S' & A' & Fi') H. assert (G1 := r_grows _ _ (z_ran _ _ _ _ _ _ _ S')).
  destruct (steps_conn _ _ _ _ _ _ _ _ H (at_lt _ _ _ _ (grows_f _ _ _ _ _ G1 A)) (at_lt _ _ _ _ A') (z_said _ _ _ _ _ _ _ S')) as (S3 & N & V). assert (G2 := r_grows _ _ (z_ran _ _ _ _ _ _ _ S3)).
  split; [|exact V]. exists (z :: X ++ Y). split; [|split].
  - eapply steps_sub; [exact (steps_trans _ _ _ _ _ _ _ _ _ _ _ (steps_trans _ _ _ _ _ _ _ _ _ _ _ S S') S3)|]. intros i. rewrite !cnt_app, !cnt_cons, !cnt_nil, !cnt_app. lia.
  - econstructor; [exact N|eapply grows_f; [|exact A]; eapply grows_trans; eassumption|eapply grows_f; eassumption].
  - cbn [events]. apply fine_app'; [eapply fine_next; [exact (z_names _ _ _ _ _ _ _ S')|exact Fi]|exact Fi'].
Qed.

Lemma did_free vf g t s W s1 t1 W1 x F fr s2 : did g t s W s1 t1 W1 x F -> ctx g s -> has_free_vars vf x s1 = Ok (fr, s2) -> s2 = s1 /\ fr = free_in g F.
Proof.
  intros (X & S & A & Fi) C H. apply MeaningStep.has_free_inv in H. destruct H as (-> & l & V & Sc). split; [reflexivity|]. rewrite <- events_free.
  eapply free_spec with (X := X) (l := l); try eassumption; [exact (r_grows _ _ (z_ran _ _ _ _ _ _ _ S))|exact (z_said _ _ _ _ _ _ _ S)| | | |].
  - eapply (proj1 (events_at _)); eassumption.
  - eapply (proj1 (muts_at _)); eassumption.
  - intros v n d fo I E. eapply (proj1 (Forall_forall _ _) (proj1 (sound_at _) _ _ _ A _ _ V)); eassumption.
  - intros i I. apply (steps_next _ _ _ _ _ _ _ _ S I).
Qed.

(** ** Predicates *)

Fixpoint at_pc (h : heap) (X : list ref) (p : pcon) (P : predic) : Prop :=
  match p, P with
  | PPred r, Single q => at_p h X r q
  | PConn c l r, Pair c' P Q => c = c' /\ exists Y Z, X = Y ++ Z /\ at_pc h Y l P /\ at_pc h Z r Q
  | _, _ => False
  end.
Lemma grows_pc h h' : grows h h' -> forall p P X, at_pc h X p P -> at_pc h' X p P.
Proof.
  intros G. induction p as [r|c l IHl r IHr]; intros [q|c' P Q] X H; cbn [at_pc] in *; try contradiction; [eapply grows_p; eassumption|].
  destruct H as (-> & Y & Z & -> & A & B). eauto 8.
Qed.
Lemma plain_pc h : forall p P X q, at_pc h X p P -> plainly P = Some q -> X = [] /\ rpred h p q.
Proof.
  induction p as [r|c l IHl r IHr]; intros [q|c' P Q] X a H E; cbn [at_pc] in H; try contradiction; cbn [plainly] in E.
  - destruct H; [|discriminate]. injection E as <-. auto.
  - destruct H as (-> & Y & Z & -> & A & B). destruct (plainly P) eqn:E1; [|discriminate]. destruct (plainly Q) eqn:E2; [|discriminate]. injection E as <-.
    destruct (IHl _ _ _ A E1) as (-> & R1). destruct (IHr _ _ _ B E2) as (-> & R2). cbn. auto.
Qed.
Lemma of_plain_pc h : forall p q, rpred h p q -> at_pc h [] p (of_plain q).
Proof.
  induction p as [r|c l IHl r IHr]; intros [q|c' P Q] H; cbn [rpred] in H; try contradiction; cbn [of_plain at_pc].
  - constructor. exact H.
  - destruct H as (-> & A & B). split; [reflexivity|]. exists [], []. auto.
Qed.
Lemma plainly_of p : plainly (of_plain p) = Some p.
Proof. induction p as [p|c p IHp q IHq]; cbn; [reflexivity|]. rewrite IHp, IHq. reflexivity. Qed.

Fixpoint of_predicate (p : predicate) : list nat :=
  match p with One p => of_property p | Two _ p q => of_predicate p ++ of_predicate q end.
Fixpoint fine_pc (S : nat -> Prop) (P : predic) : Prop :=
  match P with Single p => fine S (events_p p) | Pair _ P Q => fine_pc S P /\ fine_pc S Q end.
Definition didp (g : scene) (t : told) (s : st) (W : list ref) (s' : st) (t' : told) (W' : list ref) (p : pcon) (P : predic) : Prop :=
  exists X, steps s t W X s' t' W' /\ at_pc (s_heap s') X p P /\ fine_pc (inS g t') P.

Lemma fine_said S l : fine S (events_r l) -> forall P, fine_pc S P -> fine S (events (said_of P l)).
Proof.
  intros B. induction P as [p|c P IHP Q IHQ]; intros A; cbn [said_of events fine_pc] in *; [apply fine_app'; assumption|]. destruct A. apply fine_app'; auto.
Qed.
Lemma fine_pc_weak (S T : nat -> Prop) : (forall x, S x -> T x) -> forall P, fine_pc S P -> fine_pc T P.
Proof. intros I. induction P as [p|c P IHP Q IHQ]; cbn [fine_pc]; [intros; eapply fine_weak; eauto|tauto]. Qed.
Lemma fine_plain S : forall P p, plainly P = Some p -> fine_pc S P -> forall x, In x (of_predicate p) -> S x.
Proof.
  induction P as [[p|F]|c P IHP Q IHQ]; intros a E H x J; cbn [plainly] in E; try discriminate.
  - injection E as <-. cbn [fine_pc events_p of_predicate] in *. revert J H. generalize (of_property p). intros l. induction l as [|y l IH]; intros J; [destruct J|].
    cbn. intros [K1 K2]. destruct J as [->|J]; auto.
  - destruct (plainly P); [|discriminate]. destruct (plainly Q); [|discriminate]. injection E as <-. cbn [of_predicate fine_pc] in *. apply in_app_or in J. destruct H, J; eauto.
Qed.
Lemma plain_fine (S : nat -> Prop) p : (forall x, In x (of_predicate p) -> S x) -> fine_pc S (of_plain p).
Proof.
  induction p as [p|c p IHp q IHq]; intros H; cbn [of_plain fine_pc events_p of_predicate] in *; [apply fine_inr, H|].
  split; [apply IHp|apply IHq]; intros; apply H, in_or_app; auto.
Qed.
Lemma serial_names p q x : In x (of_predicate (serial p q)) -> In x (of_predicate p) \/ In x (of_predicate q).
Proof.
  assert (R : forall a q, In x (of_predicate (serial (One a) q)) -> In x (of_property a) \/ In x (of_predicate q)).
  { intros a k. induction k as [b|c q1 IH1 q2 IH2]; cbn [serial of_predicate of_property]; intros J; apply in_app_or in J; [exact J|]. rewrite in_app_iff. destruct J as [J|J]; [destruct (IH1 J)|destruct (IH2 J)]; auto. }
  induction p as [a|c p1 IH1 p2 IH2]; intros J; [apply R, J|]. cbn [serial of_predicate] in *. rewrite in_app_iff. apply in_app_or in J. destruct J as [J|J]; [destruct (IH1 J)|destruct (IH2 J)]; auto.
Qed.

Lemma serial_right_read h0 l a t W : forall r q s z s', serial_right l r s = Ok (z, s') -> grows h0 (s_heap s) -> rprop h0 l a -> rpred h0 r q -> said t s W ->
  rpred (s_heap s') z (serial (One a) q) /\ steps s t W [] s' t W /\ s_vars s' = s_vars s.
Proof.
  induction r as [r|c r1 IH1 r2 IH2]; intros [b|c' q1 q2] s z s' H G L R S; cbn [rpred] in R; try contradiction; cbn [serial_right] in H.
  - minv H. minv H. subst. destruct (steps_serial _ _ _ _ _ _ _ E (prop_lt _ _ _ (prop_grows _ _ _ _ G L)) (prop_lt _ _ _ (prop_grows _ _ _ _ G R)) S) as (S1 & N & V). split; [|auto]. cbn [rpred serial]. assert (G1 := r_grows _ _ (z_ran _ _ _ _ _ _ _ S1)).
    econstructor 3; [exact N| |]; (eapply prop_grows; [|eassumption]; eapply grows_trans; eassumption).
  - destruct R as (-> & R1 & R2). minv H. minv H. minv H. subst. destruct (IH1 _ _ _ _ E G L R1 S) as (P1' & S1 & V1). assert (G1 := r_grows _ _ (z_ran _ _ _ _ _ _ _ S1)).
    destruct (IH2 _ _ _ _ E0 (grows_trans _ _ _ G G1) L R2 (z_said _ _ _ _ _ _ _ S1)) as (P2' & S2 & V2). split; [|split; [exact (steps_trans _ _ _ _ _ _ _ _ _ _ _ S1 S2)|congruence]].
    cbn [rpred serial]. split; [reflexivity|]. split; [eapply pred_grows; [exact (r_grows _ _ (z_ran _ _ _ _ _ _ _ S2))|exact P1']|exact P2'].
Qed.
Lemma serial_left_read h0 r q t W : forall l p s z s', serial_left l r s = Ok (z, s') -> grows h0 (s_heap s) -> rpred h0 l p -> rpred h0 r q -> said t s W ->
  rpred (s_heap s') z (serial p q) /\ steps s t W [] s' t W /\ s_vars s' = s_vars s.
Proof.
  induction l as [l|c l1 IH1 l2 IH2]; intros [a|c' p1 p2] s z s' H G L R S; cbn [rpred] in L; try contradiction; cbn [serial_left] in H.
  - eapply serial_right_read; eassumption.
  - destruct L as (-> & L1 & L2). minv H. minv H. minv H. subst. destruct (IH1 _ _ _ _ E G L1 R S) as (P1' & S1 & V1). assert (G1 := r_grows _ _ (z_ran _ _ _ _ _ _ _ S1)).
    destruct (IH2 _ _ _ _ E0 (grows_trans _ _ _ G G1) L2 R (z_said _ _ _ _ _ _ _ S1)) as (P2' & S2 & V2). split; [|split; [exact (steps_trans _ _ _ _ _ _ _ _ _ _ _ S1 S2)|congruence]].
    cbn [rpred serial]. split; [reflexivity|]. split; [eapply pred_grows; [exact (r_grows _ _ (z_ran _ _ _ _ _ _ _ S2))|exact P1']|exact P2'].
Qed.

Lemma row_at h xs l : Forall2 (optional (rthing h)) xs l -> at_r h [] xs (row_of l).
Proof. intros H. induction H as [|o v xs l O H IH]; [constructor|]. destruct O as [|x v T]; cbn [row_of]; [constructor; exact IH|]. apply (AtItem _ _ _ _ _ [] []); [constructor; exact T|exact IH]. Qed.
Lemma distribute_at h0 a o tl t W : order_arguments a = Ok o -> Forall2 (optional (rthing h0)) o tl ->
  forall p P X s z s', distribute_predication p a s = Ok (z, s') -> grows h0 (s_heap s) -> at_pc h0 X p P -> said t s W ->
  exists N X', steps s t W N s' t W /\ at_f (s_heap s') X' z (said_of P (row_of tl)) /\ (forall i, cnt X' i = cnt X i + cnt N i) /\ s_vars s' = s_vars s.
Proof.
  intros Eo Ho. induction p as [r|c l IHl r IHr]; intros [b|c' P1 P2] X s z s' H G R S; cbn [at_pc] in R; try contradiction; cbn [distribute_predication] in H.
  - minv H. unfold lift in E. rewrite Eo in E. injection E as <- <-. destruct (steps_alloc _ _ _ _ _ _ H eq_refl S) as (S1 & N & V). assert (G1 := r_grows _ _ (z_ran _ _ _ _ _ _ _ S1)).
    exists [z], (z :: X ++ []). split; [exact S1|]. split; [|split; [|exact V]].
    + cbn [said_of]. econstructor; [exact N|eapply grows_p; [|exact R]; eapply grows_trans; eassumption|].
      apply row_at. eapply forall2_weak; [exact Ho|]. intros x y K. eapply optional_weak; [exact K|]. intros. eapply thing_grows; [|eassumption]. eapply grows_trans; eassumption.
    + intros i. rewrite !cnt_cons, cnt_app, !cnt_nil. lia.
  - destruct R as (-> & Y & Z & -> & R1 & R2). minv H. minv H. destruct (IHl _ _ _ _ _ E G R1 S) as (N1 & X1 & S1 & A1 & C1 & V1). assert (G1 := r_grows _ _ (z_ran _ _ _ _ _ _ _ S1)).
    destruct (IHr _ _ _ _ _ E0 (grows_trans _ _ _ G G1) R2 (z_said _ _ _ _ _ _ _ S1)) as (N2 & X2 & S2 & A2 & C2 & V2). assert (G2 := r_grows _ _ (z_ran _ _ _ _ _ _ _ S2)).
    destruct (steps_conn _ _ _ _ _ _ _ _ H (at_lt _ _ _ _ (grows_f _ _ _ _ _ G2 A1)) (at_lt _ _ _ _ A2) (z_said _ _ _ _ _ _ _ S2)) as (S3 & N & V3). assert (G3 := r_grows _ _ (z_ran _ _ _ _ _ _ _ S3)).
    exists ((N1 ++ N2) ++ [z]), (z :: X1 ++ X2). split; [exact (steps_trans _ _ _ _ _ _ _ _ _ _ _ (steps_trans _ _ _ _ _ _ _ _ _ _ _ S1 S2) S3)|]. split; [|split; [|congruence]].
    + cbn [said_of]. econstructor; [exact N|eapply grows_f; [|exact A1]; eapply grows_trans; eassumption|eapply grows_f; eassumption].
    + intros i. specialize (C1 i). specialize (C2 i). rewrite !cnt_cons, !cnt_app, cnt_cons, cnt_nil. lia.
Qed.

Lemma events_row l : events_r (row_of l) = map inr (of_args l).
Proof.
  induction l as [|[v|] l IH]; [reflexivity| |exact IH]. cbn [row_of events_r events_t]. rewrite IH. unfold of_args. cbn [flat_map olist]. rewrite app_nil_r, map_app. reflexivity.
Qed.
Lemma fine_row g t ta l : placed ta l -> args_in g t ta -> fine (inS g t) (events_r (row_of l)).
Proof.
  intros P A. rewrite events_row. apply fine_inr. intros x J. apply (MeaningNames.placed_names _ _ _ P) in J. unfold MeaningNames.anames in J. apply in_flat_map in J.
  destruct J as ([v k] & I & J). specialize (A _ _ I). destruct v; [|destruct J]. destruct J as [<-|[]]. exact A.
Qed.

Lemma did_pred g t s W s1 t1 W1 p P a ta z s2 : didp g t s W s1 t1 W1 p P -> rargs (s_heap s1) a ta -> args_in g t1 ta -> distribute_predication p a s1 = Ok (z, s2) ->
  exists l, placed ta l /\ did g t s W s2 t1 W1 z (said_of P (row_of l)) /\ s_vars s2 = s_vars s1.
Proof.
  intros (X & S & A & Fi) Ra Ai H. destruct (order_spec a) as (o & k & Eo & _). destruct (order_placed _ _ _ _ Ra Eo) as (tl & Pl & Ho). exists tl. split; [exact Pl|].
  destruct (distribute_at _ _ _ _ _ _ Eo Ho _ _ _ _ _ _ H (grows_refl _) A (z_said _ _ _ _ _ _ _ S)) as (N & X' & S2 & A2 & C & V).
  split; [|exact V]. exists X'. split; [|split; [exact A2|apply fine_said; [eapply fine_row; eassumption|exact Fi]]].
  eapply steps_sub; [exact (steps_trans _ _ _ _ _ _ _ _ _ _ _ S S2)|]. intros i. rewrite cnt_app, C. lia.
Qed.
(** The arguments of makePredication. *)
Lemma did_make g t s W s1 t1 W1 p P l vs z s2 : didp g t s W s1 t1 W1 p P -> Forall2 (rthing (s_heap s1)) l vs -> (forall v, In v vs -> var_in g t1 v) ->
  distribute_predication p (map (fun r => (r, 0)) l) s1 = Ok (z, s2) ->
  did g t s W s2 t1 W1 z (said_of P (row_of (map Some vs))) /\ s_vars s2 = s_vars s1.
Proof.
  intros (X & S & A & Fi) T In_ H.
  assert (Eo : order_arguments (map (fun r => (r, 0)) l) = Ok (map Some l)).
  { unfold order_arguments. assert (N : nargs (map (fun r : ref => (r, 0)) l) = length l).
    { unfold nargs. rewrite map_length. generalize (length l). clear. induction l as [|x l IH]; intros n; [reflexivity|]. cbn [map fold_left snd]. apply IH. }
    rewrite N. assert (P0 : forall o, place_linked (map (fun r : ref => (r, 0)) l) o = o) by (clear; unfold place_linked; induction l as [|x l IH]; intros o; [reflexivity|apply IH]).
    rewrite P0. clear. assert (K : forall pre, place_unlinked (map (fun r : ref => (r, 0)) l) (map Some pre ++ repeat None (length l)) = Ok (map Some (pre ++ l))).
    { induction l as [|x l IH]; intros pre; [rewrite !app_nil_r; reflexivity|]. cbn [map length repeat place_unlinked].
      assert (E : next_empty (map Some pre ++ None :: repeat None (length l)) x = Ok (map Some pre ++ Some x :: repeat None (length l))).
      { clear. induction pre as [|y pre IH]; [reflexivity|]. cbn [map app next_empty]. rewrite IH. reflexivity. }
      rewrite E. cbn [bind]. specialize (IH (pre ++ [x])). rewrite map_app in IH. cbn [map] in IH. rewrite <- app_assoc in IH. cbn [app] in IH. rewrite IH. f_equal. rewrite <- app_assoc. reflexivity. }
    exact (K []). }
  assert (Ho : Forall2 (optional (rthing (s_heap s1))) (map Some l) (map Some vs)) by (clear - T; induction T; cbn; constructor; [constructor|]; assumption).
  destruct (distribute_at _ _ _ _ _ _ Eo Ho _ _ _ _ _ _ H (grows_refl _) A (z_said _ _ _ _ _ _ _ S)) as (N & X' & S2 & A2 & C & V).
  split; [|exact V]. exists X'. split; [|split; [exact A2|apply fine_said; [|exact Fi]]].
  - eapply steps_sub; [exact (steps_trans _ _ _ _ _ _ _ _ _ _ _ S S2)|]. intros i. rewrite cnt_app, C. lia.
  - rewrite events_row. apply fine_inr. intros x J. unfold of_args in J. apply in_flat_map in J. destruct J as (o & I & J). apply in_map_iff in I. destruct I as (v & <- & I).
    specialize (In_ _ I). cbn in J. rewrite app_nil_r in J. destruct v; [|destruct J]. destruct J as [<-|[]]. exact In_.
Qed.

Lemma lookup_at v s x d s' vs : lookup_var v s = Ok (x, d, s') -> same_vars (s_heap s) vs (s_vars s) -> forall t W z s'', said t s W -> alloc (CVariable x d false) s' = Ok (z, s'') ->
  exists th i, looked_up vs v (n_next t) = (th, i) /\ rthing (s_heap s'') z th /\ steps s t W [] s'' (up_to t i) W /\ s_vars s'' = s_vars s /\
    match th with Bound y _ => In (v, y) vs | Free _ => True end.
Proof.
  unfold lookup_var, looked_up. intros H V t W z s'' S A.
  assert (Fi : match find (fun b => String.eqb (fst b) v) (s_vars s), find (fun b => String.eqb (fst b) v) vs with
               | Some (_, r), Some (_, y) => num (s_heap s) r y /\ In (v, y) vs | None, None => True | _, _ => False end).
  { clear - V. induction V as [|[a x] [b y] l m [E N] V IH]; cbn [find fst snd] in *; [exact I|]. subst b. destruct (String.eqb a v) eqn:Ea; [apply String.eqb_eq in Ea; subst; split; [exact N|left; reflexivity]|].
    destruct (find _ m) as [[? ?]|], (find _ l) as [[? ?]|]; try contradiction; [|exact I]. destruct IH. split; [assumption|right; assumption]. }
  destruct (find _ (s_vars s)) as [[v' r]|], (find _ vs) as [[v2 y]|]; try contradiction.
  - destruct Fi as [Fi Iy]. minv H. apply get_binding_ok in E. destruct E as [-> B]. minv H. injection H as <- <-. subst s'.
    destruct (steps_leaf _ _ _ _ _ _ A eq_refl S) as (S1 & N & Vs). exists (Bound y false), (n_next t). split; [reflexivity|].
    destruct Fi as (q & f & rs & sc & B'). rewrite B in B'. injection B' as B1 B2 B3 B4 B5. split; [|split; [rewrite up_same; exact S1|auto]].
    rewrite <- B2 in *. econstructor 1; [exact N|]. eapply num_grows; [exact (r_grows _ _ (z_ran _ _ _ _ _ _ _ S1))|]. eexists _, _, _, _. exact B.
  - minv H. minv H. injection H as <- <-. subst s'. destruct (steps_free _ _ _ _ _ _ _ E A S) as (S1 & T & Vs). eauto 8.
Qed.

(** ** Abstractions *)

Lemma lambda_at pred arg a X s r s' t W : make_lambda pred arg s = Ok (r, s') -> said t s W -> nth_error (s_heap s) pred = Some (CPred "=") -> at_t (s_heap s) X arg a ->
  exists N X', steps s t W N s' (up_to t (S (n_next t))) W /\ at_p (s_heap s') X' r (being (n_next t) a) /\ (forall i, cnt X' i = cnt X i + cnt N i) /\ s_vars s' = s_vars s.
Proof.
  unfold make_lambda. intros H S Pr A. minv H. minv H. minv H. minv H. minv H.
  destruct (steps_new (fun x => CBinding QLambda x false None None) _ _ _ _ _ _ _ E E0 ltac:(eauto 6) S) as (S1 & -> & N1 & V1). clear E E0. rename a1 into lam.
  destruct (steps_leaf _ _ _ _ _ _ E1 eq_refl (z_said _ _ _ _ _ _ _ S1)) as (S3 & N3 & V3). clear E1.
  destruct (steps_alloc _ _ _ _ _ _ E2 eq_refl (z_said _ _ _ _ _ _ _ S3)) as (S4 & N4 & V4). clear E2.
  assert (G1 := r_grows _ _ (z_ran _ _ _ _ _ _ _ S1)). assert (G3 := r_grows _ _ (z_ran _ _ _ _ _ _ _ S3)). assert (G4 := r_grows _ _ (z_ran _ _ _ _ _ _ _ S4)).
  assert (S14 := steps_trans _ _ _ _ _ _ _ _ _ _ _ (steps_trans _ _ _ _ _ _ _ _ _ _ _ S1 S3) S4).
  assert (B4 := G4 _ _ (G3 _ _ N1)).
  apply set_scope_ok in E3. destruct E3 as (q1 & n1 & f1 & rs1 & sc1 & B1 & ->). rewrite B4 in B1. injection B1 as <- <- <- <- <-.
  destruct (steps_put _ _ _ _ _ _ _ _ _ _ _ _ _ QLambda false None (Some a3) S14 ltac:(left; reflexivity) B4) as (S5 & N5 & K5).
  destruct (steps_alloc _ _ _ _ _ _ H eq_refl (z_said _ _ _ _ _ _ _ S5)) as (S6 & N6 & V6). assert (G6 := r_grows _ _ (z_ran _ _ _ _ _ _ _ S6)).
  assert (Lam : lam < length (s_heap s1)) by (eapply nth_lt, N1).
  assert (Nl : a3 <> lam) by (assert (K := steps_next _ _ _ _ _ _ _ _ S4 ltac:(left; reflexivity)); pose proof (grows_len _ _ G3); lia).
  assert (Xl : forall i, In i X -> i <> lam).
  { intros i I ->. assert (K := mut_lt _ _ (at_mutt _ _ _ _ _ A I)). assert (K2 := steps_next _ _ _ _ _ _ _ _ S1 ltac:(left; reflexivity)). lia. }
  assert (Tv : rthing (s_heap s2) a2 (Bound (n_next t) false)) by (econstructor 1; [exact N3|eexists _, _, _, _; apply G3, N1]).
  assert (G14 : grows (s_heap s) (s_heap s3)) by (eapply grows_trans; [exact G1|eapply grows_trans; eassumption]).
  exists (([lam] ++ []) ++ [a3] ++ [r]), (r :: lam :: a3 :: [] ++ [] ++ X ++ []). split; [|split; [|split]].
  - eapply steps_sub; [exact (steps_trans _ _ _ _ _ _ _ _ _ _ _ S5 S6)|]. intros i. rewrite !cnt_app, !cnt_cons, !cnt_nil. lia.
  - econstructor; [exact N6|]. apply grows_f with (h := s_heap (put s3 lam (CBinding QLambda (n_next t) false None (Some a3)))); [exact G6|]. econstructor; [exact N5|].
    eapply keeps_f with (Q := fun i => i <> lam); [exact K5| |].
    + econstructor; [exact N4|constructor; constructor 1; apply G14, Pr|]. apply (AtItem _ _ _ _ _ [] _); [constructor; eapply thing_grows; [exact G4|exact Tv]|].
      constructor; [eapply grows_t; [exact G14|exact A]|constructor].
    + intros i I. cbn in I. rewrite app_nil_r in I. destruct I as [<-|I]; [exact Nl|apply Xl, I].
  - intros i. cbn [app]. rewrite !cnt_cons, !cnt_app, !cnt_nil. lia.
  - cbn [put with_heap s_vars] in V6. congruence.
Qed.
Lemma content_at stmt F X s r s' t W : make_content_pred stmt s = Ok (r, s') -> said t s W -> at_f (s_heap s) X stmt F ->
  exists N X', steps s t W N s' (up_to t (S (n_next t))) W /\ at_p (s_heap s') X' r (being (n_next t) (That F)) /\ (forall i, cnt X' i = cnt X i + cnt N i) /\ s_vars s' = s_vars s.
Proof.
  unfold make_content_pred. intros H S A. minv H. minv H.
  destruct (steps_leaf _ _ _ _ _ _ E eq_refl S) as (S1 & N1 & V1). destruct (steps_alloc _ _ _ _ _ _ E0 eq_refl (z_said _ _ _ _ _ _ _ S1)) as (S2 & N2 & V2).
  assert (G1 := r_grows _ _ (z_ran _ _ _ _ _ _ _ S1)). assert (G2 := r_grows _ _ (z_ran _ _ _ _ _ _ _ S2)).
  assert (A2 : at_t (s_heap s1) (a0 :: X) a0 (That F)) by (constructor 3 with (x := stmt); [exact N2|eapply grows_f; [exact G2|eapply grows_f; eassumption]]).
  destruct (lambda_at _ _ _ _ _ _ _ _ _ H (z_said _ _ _ _ _ _ _ S2) (G2 _ _ N1) A2) as (N & X' & S3 & A3 & C & V).
  exists ([a0] ++ N), X'. split; [exact (steps_trans _ _ _ _ _ _ _ _ _ _ _ (steps_trans _ _ _ _ _ _ _ _ _ _ _ S1 S2) S3)|]. split; [exact A3|]. split; [|congruence].
  intros i. rewrite C, cnt_cons, cnt_app, cnt_cons, cnt_nil. lia.
Qed.
Lemma fine_being S y a : fine S (events_t a) -> fine S (events_p (being y a)).
Proof. intros H. cbn. split; [auto|]. rewrite app_nil_r. eapply fine_weak; [exact H|]. auto. Qed.
Lemma fine_clause S x y F : fine S (events F) -> S x -> fine S (events (is_clause x y F)).
Proof. intros H K. unfold is_clause. cbn [events]. apply fine_app'; [apply fine_being, H|]. cbn. auto. Qed.
