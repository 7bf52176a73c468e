(** Bindings: what becomes of them in a run. *)

From Coq Require Import String NArith List Bool Arith Lia.
From Verif Require Import Base PegSyntax Ast AstSorts Logic LogicWords LogicSpec ScopeSpec Interp OrderFacts SeqFacts TermFacts ScopeFacts ScopeInterp ScopeRun Meaning MeaningFacts Clauses ClauseHeap ClauseRun ClauseStep.
From Verif Require MeaningStep MeaningArgs.
Import ListNotations.
Open Scope string_scope.
Open Scope list_scope.
Open Scope nat_scope.

Notation z_grows S := (r_grows _ _ (z_ran _ _ _ _ _ _ _ S)).
Notation z_now S := (z_said _ _ _ _ _ _ _ S).
Notation z_trans S T := (steps_trans _ _ _ _ _ _ _ _ _ _ _ S T).

(** A binding without its scope. *)
Inductive at_bind (h : heap) : list ref -> option ref -> option binding_of -> bool -> Prop :=
  | BNone fo : at_bind h [] None None fo
  | BFree r q x fo : nth_error h r = Some (CBinding q x fo None None) -> at_bind h [r] (Some r) (Some (q, x, None)) fo
  | BLimited r q x fo rs R X : nth_error h r = Some (CBinding q x fo (Some rs) None) -> at_f h X rs R -> at_bind h (r :: X) (Some r) (Some (q, x, Some R)) fo.
Lemma grows_bind h h' X bo b fo : grows h h' -> at_bind h X bo b fo -> at_bind h' X bo b fo.
Proof. intros G [|r q x f E|r q x f rs R Y E A]; econstructor; [apply G, E|apply G, E|eapply grows_f; eassumption]. Qed.
Definition evb (b : option binding_of) : list event :=
  match b with None => [] | Some (_, x, None) => [inl x] | Some (_, x, Some R) => inl x :: events R end.
Lemma events_wrapped b fo F : events (wrapped b fo F) = evb b ++ events F.
Proof. destruct b as [[[q x] [R|]]|]; reflexivity. Qed.

Lemma put_keeps s b q n f rs sc q' f' rs' sc' : nth_error (s_heap s) b = Some (CBinding q n f rs sc) ->
  keeps (s_heap s) (s_heap (put s b (CBinding q' n f' rs' sc'))) (fun i => i <> b).
Proof. intros B. eapply keeps_put; [exact B|reflexivity|]. intros ? ? ? ? ? E. injection E as <- <- <- <- <-. eauto 6. Qed.
Lemma ctx_put g s b q n f rs sc f' rs' sc' : ctx g s -> nth_error (s_heap s) b = Some (CBinding q n f rs sc) -> ctx g (put s b (CBinding q n f' rs' sc')).
Proof.
  intros [V H B] E. assert (K := put_keeps s b q n f rs sc q f' rs' sc' E). split.
  - eapply forall2_weak; [exact V|]. intros x y [P Q]. split; [exact P|apply (k_num _ _ _ K), Q].
  - eapply optional_weak; [exact H|]. intros x y. apply (k_num _ _ _ K).
  - intros x fl J. destruct (B _ _ J) as (d & q1 & f1 & rs1 & sc1 & D & Fl). destruct (Nat.eq_dec d b) as [->|Ne].
    + rewrite E in D. injection D as <- <- <- <- <-. exists b, q, f', rs', sc'. split; [apply set_nth_same; eapply nth_lt, E|exact Fl].
    + exists d, q1, f1, rs1, sc1. split; [|exact Fl]. eapply k_same; [exact K|exact D|exact Ne].
Qed.
Lemma ctx_same g s s' : s_heap s' = s_heap s -> s_vars s' = s_vars s -> s_hoa s' = s_hoa s -> ctx g s -> ctx g s'.
Proof. intros A B C [V H D]. split; rewrite ?A, ?B, ?C; assumption. Qed.

(** bindScope. *)
Lemma scope_at vf s t W X s1 t1 W1 bo b fo Z s2 t2 W2 y F z s3 : steps s t W X s1 t1 W1 -> at_bind (s_heap s1) X bo b fo ->
  steps s1 t1 W1 Z s2 t2 W2 -> at_f (s_heap s2) Z y F -> bind_scope vf bo y s2 = Ok (z, s3) ->
  steps s t W (X ++ Z) s3 t2 W2 /\ at_f (s_heap s3) (X ++ Z) z (wrapped b fo F) /\ s_vars s3 = s_vars s2.
Proof.
  intros S1 B S2 A H. assert (S := z_trans S1 S2). assert (B2 := grows_bind _ _ _ _ _ _ (z_grows S2) B). destruct bo as [r|].
  2:{ cbn [bind_scope] in H. minv H. subst. inversion B; subst. auto. }
  assert (Br : exists q x oR rs Y, b = Some (q, x, oR) /\ X = r :: Y /\ nth_error (s_heap s2) r = Some (CBinding q x fo rs None) /\
     match oR with None => rs = None /\ Y = [] | Some R => exists c, rs = Some c /\ at_f (s_heap s2) Y c R end).
  { inversion B2; subst; [exists q, x, None, None, []; auto|exists q, x, (Some R), (Some rs), X0; eauto 8]. }
  destruct Br as (q & x & oR & rs & Y & -> & -> & E & Rr).
  unfold bind_scope in H. destruct vf as [|k]; [discriminate|]. cbn [bind_scope_fuel] in H. minv H. apply get_binding_ok in E0. destruct E0 as [-> B0].
  rewrite E in B0. injection B0 as Hq Hn Hf Hr Hs. rewrite <- Hs in H. minv H. minv H. subst. apply set_scope_ok in E0. destruct E0 as (q1 & n1 & f1 & rs1 & sc1 & B1 & ->).
  rewrite E in B1. injection B1 as <- <- <- <- <-.
  destruct (steps_put _ _ _ _ _ _ _ _ _ _ _ _ _ (b_q a) (b_focus a) (b_restr a) (Some y) S ltac:(left; reflexivity) E) as (S3 & N3 & K3).
  assert (Nin : forall i, In i (Y ++ Z) -> i <> z).
  { intros i I ->. assert (K := steps_once _ _ _ _ _ _ _ z S). cbn [app] in K. rewrite cnt_cons, Nat.eqb_refl in K. apply cnt_in in I. lia. }
  split; [exact S3|]. split; [|reflexivity]. cbn [wrapped]. destruct oR as [R|].
  - destruct Rr as (c & Ex & Rx). rewrite Ex in *. cbn [app]. econstructor; [exact N3|eapply keeps_f; [exact K3|exact Rx|]|eapply keeps_f; [exact K3|exact A|]]; intros i I; apply Nin, in_or_app; auto.
  - destruct Rr as [Ex ->]. rewrite Ex in *. cbn [app]. econstructor; [exact N3|]. eapply keeps_f; [exact K3|exact A|]. intros i I; apply Nin, in_or_app; auto.
Qed.

(** A binding with its restriction. *)
Definition bset (s : st) (t : told) (W : list ref) (s1 : st) (t1 : told) (W1 : list ref) (b : ref) (q : quant) (x : nat) (f : bool) (r : ref) (R : form) : Prop :=
  exists Y, steps s t W (b :: Y) s1 t1 W1 /\ nth_error (s_heap s1) b = Some (CBinding q x f (Some r) None) /\ at_f (s_heap s1) Y r R.

Lemma bset_put s t W N s1 t1 W1 b q x f rs Y r R u s2 : steps s t W (b :: N) s1 t1 W1 -> nth_error (s_heap s1) b = Some (CBinding q x f rs None) ->
  at_f (s_heap s1) Y r R -> (forall i, cnt Y i <= cnt N i) -> set_restriction b r s1 = Ok (u, s2) ->
  bset s t W s2 t1 W1 b q x f r R /\ s_vars s2 = s_vars s1 /\ (forall c v, rthing (s_heap s1) c v -> rthing (s_heap s2) c v) /\ (forall g, ctx g s1 -> ctx g s2).
Proof.
  intros S B A C H. apply set_restriction_ok in H. destruct H as (q1 & n1 & f1 & rs1 & sc1 & B1 & ->). rewrite B in B1. injection B1 as <- <- <- <- <-.
  destruct (steps_put _ _ _ _ _ _ _ _ _ _ _ _ _ q f (Some r) None S ltac:(left; reflexivity) B) as (S2 & N2 & K2).
  split; [|split; [reflexivity|split; [intros; eapply keeps_thing; eassumption|intros; eapply ctx_put; eassumption]]].
  exists Y. split; [eapply steps_sub; [exact S2|]; intros i; rewrite !cnt_cons; specialize (C i); lia|]. split; [exact N2|]. eapply keeps_f; [exact K2|exact A|].
  intros i I ->. assert (K := steps_once _ _ _ _ _ _ _ b S). rewrite cnt_cons, Nat.eqb_refl in K. apply cnt_in in I. specialize (C b). lia.
Qed.
Lemma bset_restrict s t W s1 t1 W1 b q x f g s2 t2 W2 r R u s3 : steps s t W [b] s1 t1 W1 -> nth_error (s_heap s1) b = Some (CBinding q x f None None) ->
  did g t1 s1 W1 s2 t2 W2 r R -> set_restriction b r s2 = Ok (u, s3) ->
  bset s t W s3 t2 W2 b q x f r R /\ s_vars s3 = s_vars s2 /\ (forall c v, rthing (s_heap s2) c v -> rthing (s_heap s3) c v) /\ (forall g, ctx g s2 -> ctx g s3).
Proof.
  intros S B (X & S2 & A & _) H. eapply bset_put; [exact (z_trans S S2)|apply (z_grows S2), B|exact A| |exact H]. intros; lia.
Qed.
Lemma bset_and s t W s1 t1 W1 b q x f r R g s2 t2 W2 y G z s3 u s4 : bset s t W s1 t1 W1 b q x f r R -> did g t1 s1 W1 s2 t2 W2 y G ->
  alloc (CConnection KAnd r y) s2 = Ok (z, s3) -> set_restriction b z s3 = Ok (u, s4) ->
  bset s t W s4 t2 W2 b q x f z (Joined KAnd R G) /\ s_vars s4 = s_vars s2 /\ (forall c v, rthing (s_heap s2) c v -> rthing (s_heap s4) c v) /\ (forall g, ctx g s2 -> ctx g s4).
Proof.
  intros (Y & S & B & A) (X & S2 & A2 & _) H3 H4. destruct (steps_conn _ _ _ _ _ _ _ _ H3 (at_lt _ _ _ _ (grows_f _ _ _ _ _ (z_grows S2) A)) (at_lt _ _ _ _ A2) (z_now S2)) as (S3 & N3 & V3).
  assert (S' := z_trans (z_trans S S2) S3). cbn [app] in S'. assert (G23 := z_grows S2). assert (G3 := z_grows S3).
  destruct (bset_put _ _ _ _ _ _ _ _ _ _ _ _ (z :: Y ++ X) z (Joined KAnd R G) u s4 S' (G3 _ _ (G23 _ _ B))) as (P1 & P2 & P3 & P4).
  - econstructor; [exact N3|eapply grows_f; [|exact A]; eapply grows_trans; eassumption|eapply grows_f; eassumption].
  - intros i. rewrite !cnt_app, !cnt_cons, !cnt_nil, !cnt_app. lia.
  - exact H4.
  - split; [exact P1|]. split; [congruence|]. split; [intros c v K; apply P3; eapply thing_grows; eassumption|].
    intros g' C. apply P4. eapply ctx_ran; [exact C|exact (z_ran _ _ _ _ _ _ _ S3)|exact V3].
Qed.
Lemma bset_content g s t W s1 t1 W1 sub F q s2 b a u s3 : did g t s W s1 t1 W1 sub F -> new_binding q false s1 = Ok (b, a, s2) -> restrict_content b a sub s2 = Ok (u, s3) ->
  exists r, bset s t W s3 (up_to t1 (S (S (n_next t1)))) W1 b q (n_next t1) false r (is_clause (n_next t1) (S (n_next t1)) F) /\ s_vars s3 = s_vars s1 /\
    rthing (s_heap s3) a (Bound (n_next t1) false).
Proof.
  intros (X & S0 & A & Fi) H1 H2. destruct (steps_binding _ _ _ _ _ _ _ _ H1 (z_now S0)) as (S2 & N2 & T2 & V2). assert (G2 := z_grows S2).
  unfold restrict_content in H2. minv H2. minv H2.
  destruct (content_at _ _ _ _ _ _ _ _ E (z_now S2) (grows_f _ _ _ _ _ G2 A)) as (N & X' & S3 & A3 & C3 & V3). assert (G3 := z_grows S3).
  destruct (steps_alloc _ _ _ _ _ _ E0 eq_refl (z_now S3)) as (S4 & N4 & V4). assert (G4 := z_grows S4).
  assert (S' := z_trans (z_trans (z_trans S0 S2) S3) S4).
  destruct (bset_put s t W (((X ++ N) ++ [a1])) s4 (up_to t1 (S (S (n_next t1)))) W1 b q (n_next t1) false None (a1 :: X' ++ [] ++ []) a1 (is_clause (n_next t1) (S (n_next t1)) F) u s3) as (P1 & P2 & P3 & P4).
  - eapply steps_sub; [exact S'|]. intros i. rewrite ?cnt_cons, !cnt_app, !cnt_cons, !cnt_nil. lia.
  - apply G4, G3, N2.
  - econstructor; [exact N4|eapply grows_p; [exact G4|exact A3]|]. apply (AtItem _ _ _ _ _ [] []); [|constructor]. constructor. eapply thing_grows; [|exact T2]. eapply grows_trans; eassumption.
  - intros i. specialize (C3 i). rewrite cnt_cons, !cnt_app, !cnt_cons, !cnt_nil. lia.
  - exact H2.
  - exists a1. split; [exact P1|]. split; [congruence|]. apply P3. eapply thing_grows; [|exact T2]. eapply grows_trans; eassumption.
Qed.
Lemma bset_quant s t W s1 t1 W1 b q x f r R q' u s2 : bset s t W s1 t1 W1 b q x f r R -> set_quantifier b q' s1 = Ok (u, s2) ->
  bset s t W s2 t1 W1 b q' x f r R /\ s_vars s2 = s_vars s1 /\ (forall c v, rthing (s_heap s1) c v -> rthing (s_heap s2) c v).
Proof.
  intros (Y & S & B & A) H. apply set_quantifier_ok in H. destruct H as (q1 & n1 & f1 & rs1 & sc1 & B1 & ->). rewrite B in B1. injection B1 as <- <- <- <- <-.
  destruct (steps_put _ _ _ _ _ _ _ _ _ _ _ _ _ q' f (Some r) None S ltac:(left; reflexivity) B) as (S2 & N2 & K2).
  split; [|split; [reflexivity|intros; eapply keeps_thing; eassumption]]. exists Y. split; [exact S2|]. split; [exact N2|]. eapply keeps_f; [exact K2|exact A|].
  intros i I ->. assert (K := steps_once _ _ _ _ _ _ _ b S). rewrite cnt_cons, Nat.eqb_refl in K. apply cnt_in in I. lia.
Qed.
Lemma bset_the s t W s1 t1 W1 b x r R u s2 : bset s t W s1 t1 W1 b QThe x false r R -> add_the b s1 = Ok (u, s2) ->
  exists W2, steps s t W [] s2 (bound_outside t1 x R) W2 /\ s_vars s2 = s_vars s1 /\ s_heap s2 = s_heap s1 /\ In x (onames (bound_outside t1 x R)).
Proof.
  intros (Y & S & B & A) H. exists (W1 ++ b :: Y). split; [eapply steps_the; [|exact B|exact A|exact H]; rewrite app_nil_r; exact S|].
  unfold add_the in H. inversion H; subst. split; [reflexivity|]. split; [reflexivity|]. unfold onames. cbn [bound_outside n_outer]. rewrite map_app. apply in_or_app. right. left. reflexivity.
Qed.
Lemma bset_ctx g s t W s1 t1 W1 b q x f r R : bset s t W s1 t1 W1 b q x f r R -> ctx g s -> s_vars s1 = s_vars s -> ctx g s1 /\ ctx (in_scope g x (counted q)) s1.
Proof.
  intros (Y & S & B & A) C V. assert (C1 := ctx_ran _ _ _ C (z_ran _ _ _ _ _ _ _ S) V). split; [exact C1|]. eapply ctx_scope; [exact C1|exact B|reflexivity].
Qed.
Lemma bset_free vf g s t W s1 t1 W1 b q x f r R fr s2 : bset s t W s1 t1 W1 b q x f r R -> ctx g s -> fine (inS g t1) (inl x :: events R) -> has_free_vars vf b s1 = Ok (fr, s2) ->
  s2 = s1 /\ fr = free_in g R.
Proof.
  intros (Y & S & B & A) C Fi H. apply MeaningStep.has_free_inv in H. destruct H as (-> & l & V & Sc). split; [reflexivity|]. rewrite <- events_free.
  destruct (visit_inv _ _ _ _ _ V B) as (f' & v & Fl & ->). cbn [below olist app] in Fl. destruct (flat_cons_inv _ _ _ _ _ Fl) as (l1 & l2 & Vr & Fl2 & ->). apply flat_nil_inv in Fl2. subst l2. rewrite app_nil_r in *.
  rewrite (free_spec _ _ _ _ _ _ (b :: Y) (inl x :: events R) _ _ _ C (z_grows S) (z_now S) V Sc); [| | | | |exact Fi].
  - induction (v_bound g) as [|y m IH]; [reflexivity|]. cbn [existsb] in *. rewrite IH. reflexivity.
  - cbn [flat_map]. unfold event_of at 1. rewrite B. cbn [app]. f_equal. eapply (proj1 (events_at _)); eassumption.
  - cbn [flat_map]. unfold mutb at 1. rewrite B. cbn [app mutable]. f_equal. eapply (proj1 (muts_at _)); eassumption.
  - intros w n d fo [<-|I] E; [rewrite B in E; discriminate|]. eapply (proj1 (Forall_forall _ _) (proj1 (sound_at _) _ _ _ A _ _ Vr)); eassumption.
  - intros i I. apply (steps_next _ _ _ _ _ _ _ _ S I).
Qed.

(** ** Arguments *)

(** A run that gives an argument. *)
Definition dida (g : scene) (t : told) (s : st) (W : list ref) (s' : st) (t' : told) (W' : list ref) (bo : option ref) (x : ref) (b : option binding_of) (v : thing) (fo : bool) (g' : scene) : Prop :=
  exists X, steps s t W X s' t' W' /\ at_bind (s_heap s') X bo b fo /\ rthing (s_heap s') x v /\ var_in g' t' v /\ ctx g' s' /\ closed g' /\
    fine (inS g t') (evb b) /\ incl (bnames g) (bnames g') /\ (forall y, In y (bnames g') -> In y (bnames g) \/ In y (binders (evb b))).

Lemma dida_none g t s W s' t' W' x v : steps s t W [] s' t' W' -> rthing (s_heap s') x v -> var_in g t' v -> ctx g s' -> closed g ->
  dida g t s W s' t' W' None x None v false g.
Proof. intros S T I C K. exists []. split; [exact S|]. split; [constructor|]. split; [exact T|]. split; [exact I|]. split; [exact C|]. split; [exact K|]. split; [exact Logic.I|]. split; [apply incl_refl|auto]. Qed.
Lemma dida_bset g t s W s' t' W' b q x f r R a fo g' : bset s t W s' t' W' b q x f r R -> rthing (s_heap s') a (Bound x fo) -> ctx g' s' -> closed g' -> bnames g' = x :: bnames g ->
  fine (inS g t') (inl x :: events R) -> dida g t s W s' t' W' (Some b) a (Some (q, x, Some R)) (Bound x fo) f g'.
Proof.
  intros (Y & S & B & A) T C K E Fi. exists (b :: Y). split; [exact S|]. split; [econstructor; eassumption|]. split; [exact T|]. split; [left; rewrite E; left; reflexivity|]. split; [exact C|].
  split; [exact K|]. split; [exact Fi|]. rewrite E. split; [apply incl_tl, incl_refl|]. intros y [<-|J]; [right; left; reflexivity|auto].
Qed.
Lemma dida_focus g t s W s1 t1 W1 bo x b v g' r u s2 : dida g t s W s1 t1 W1 bo x b v false g' -> bo = Some r -> set_focus r s1 = Ok (u, s2) ->
  dida g t s W s2 t1 W1 bo x b v true g'.
Proof.
  intros (X & S & B & T & I & C & K & Fi & In1 & In2) -> H. apply set_focus_ok in H. destruct H as (q1 & n1 & f1 & rs1 & sc1 & B1 & ->).
  assert (J : In r X) by (inversion B; subst; left; reflexivity).
  destruct (steps_put _ _ _ _ _ _ _ _ _ _ _ _ _ q1 true rs1 sc1 S J B1) as (S2 & N2 & K2). exists X. split; [exact S2|]. split.
  - inversion B as [|r' q x0 fo E|r' q x0 fo rs R Y E A]; subst; rewrite E in B1; injection B1 as <- <- <- <- <-; (econstructor; [exact N2|..]). eapply keeps_f; [exact K2|exact A|].
    intros i I' ->. assert (K' := steps_once _ _ _ _ _ _ _ r S). rewrite cnt_cons, Nat.eqb_refl in K'. apply cnt_in in I'. lia.
  - split; [eapply keeps_thing; eassumption|]. split; [exact I|]. split; [eapply ctx_put; eassumption|auto].
Qed.

Lemma fine_around g g' t1 t2 l m : incl (onames t1) (onames t2) -> fine (inS g t1) l -> fine (inS g' t2) m ->
  (forall y, In y (bnames g') -> In y (bnames g) \/ In y (binders l)) -> fine (inS g t2) (l ++ m).
Proof.
  intros I A B N. apply fine_app; [eapply fine_next; eassumption|]. eapply fine_weak; [exact B|]. intros x [K|K]; [destruct (N _ K); [left; left; assumption|right; assumption]|left; right; exact K].
Qed.
Lemma dida_scope vf g t s W s1 t1 W1 bo x b v fo g' s2 t2 W2 y F z s3 : dida g t s W s1 t1 W1 bo x b v fo g' -> did g' t1 s1 W1 s2 t2 W2 y F -> bind_scope vf bo y s2 = Ok (z, s3) ->
  did g t s W s3 t2 W2 z (wrapped b fo F) /\ s_vars s3 = s_vars s2.
Proof.
  intros (X & S & B & T & I & C & K & Fi & In1 & In2) (Z & S2 & A & Fi2) H. destruct (scope_at _ _ _ _ _ _ _ _ _ _ _ _ _ _ _ _ _ _ _ S B S2 A H) as (S3 & A3 & V3).
  split; [|exact V3]. exists (X ++ Z). split; [exact S3|]. split; [exact A3|]. rewrite events_wrapped. eapply fine_around; [exact (z_names _ _ _ _ _ _ _ S2)|eassumption..].
Qed.

(** Operands of roi: the variables stay in scope. *)
Definition didr (g : scene) (t : told) (s : st) (W : list ref) (s' : st) (t' : told) (W' : list ref) (x : ref) (F : form) (g' : scene) : Prop :=
  did g t s W s' t' W' x F /\ ctx g' s' /\ closed g' /\ incl (bnames g) (bnames g') /\ (forall y, In y (bnames g') -> In y (bnames g) \/ In y (binders (events F))).
Lemma didr_conn g t s W s1 t1 W1 x F g1 s2 t2 W2 y G g2 k z s3 : didr g t s W s1 t1 W1 x F g1 -> didr g1 t1 s1 W1 s2 t2 W2 y G g2 -> alloc (CConnection k x y) s2 = Ok (z, s3) ->
  didr g t s W s3 t2 W2 z (Joined k F G) g2.
Proof.
  intros ((X & S & A & Fi) & C & K & I1 & I2) ((Y & S' & A' & Fi') & C' & K' & I1' & I2') H. destruct (steps_conn _ _ _ _ _ _ _ _ H (at_lt _ _ _ _ (grows_f _ _ _ _ _ (z_grows S') A)) (at_lt _ _ _ _ A') (z_now S')) as (S3 & N & V).
  split; [|split; [eapply ctx_ran; [exact C'|exact (z_ran _ _ _ _ _ _ _ S3)|exact V]|split; [exact K'|split; [eapply incl_tran; eassumption|]]]].
  - exists (z :: X ++ Y). split; [|split].
    + eapply steps_sub; [exact (z_trans (z_trans S S') S3)|]. intros i. rewrite !cnt_app, !cnt_cons, !cnt_nil, !cnt_app. lia.
    + econstructor; [exact N|eapply grows_f; [|exact A]; eapply grows_trans; [exact (z_grows S')|exact (z_grows S3)]|eapply grows_f; [exact (z_grows S3)|exact A']].
    + cbn [events]. eapply fine_around; [exact (z_names _ _ _ _ _ _ _ S')|exact Fi|exact Fi'|exact I2].
  - intros w J. cbn [events]. rewrite binders_app, in_app_iff. destruct (I2' _ J) as [L|L]; [destruct (I2 _ L); auto|auto].
Qed.
Lemma didr_scope vf g t s W s1 t1 W1 bo x b v fo g' s2 t2 W2 y F g2 z s3 : dida g t s W s1 t1 W1 bo x b v fo g' -> didr g' t1 s1 W1 s2 t2 W2 y F g2 -> bind_scope vf bo y s2 = Ok (z, s3) ->
  didr g t s W s3 t2 W2 z (wrapped b fo F) g2.
Proof.
  intros D (D2 & C & K & I1 & I2) H. destruct (dida_scope _ _ _ _ _ _ _ _ _ _ _ _ _ _ _ _ _ _ _ _ _ D D2 H) as (D3 & V3).
  split; [exact D3|]. destruct D as (X & S & B & T & I & C0 & K0 & Fi & In1 & In2). split.
  - destruct bo as [r|]; [|cbn [bind_scope] in H; minv H; subst; exact C]. unfold bind_scope in H. destruct vf as [|k]; [discriminate|]. cbn [bind_scope_fuel] in H. minv H.
    apply get_binding_ok in E. destruct E as [-> B0]. destruct (b_scope a) as [sc|] eqn:Es.
    + exfalso. destruct D2 as (Z & S2 & _). inversion B as [|r' q x0 fo' E|r' q x0 fo' rs R Y E A]; subst; apply (z_grows S2) in E; rewrite E in B0; congruence.
    + minv H. minv H. subst. apply set_scope_ok in E. destruct E as (q1 & n1 & f1 & rs1 & sc1 & B1 & ->). eapply ctx_put; eassumption.
  - split; [exact K|]. split; [eapply incl_tran; eassumption|]. intros w J. rewrite events_wrapped, binders_app, in_app_iff. destruct (I2 _ J) as [L|L]; [destruct (In2 _ L); auto|auto].
Qed.
