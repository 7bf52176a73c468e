(** States of the interpreter and what is known about them. *)

From Coq Require Import String NArith List Bool Arith Lia.
From Verif Require Import Base PegSyntax Ast AstSorts Logic LogicWords LogicSpec ScopeSpec Interp OrderFacts SeqFacts TermFacts ScopeFacts ScopeInterp ScopeRun Meaning MeaningFacts Clauses ClauseHeap.
From Verif Require MeaningRun MeaningStep.
Import ListNotations.
Open Scope string_scope.
Open Scope list_scope.
Open Scope nat_scope.

Notation forall2_weak := MeaningRun.forall2_weak.
Notation optional_weak := MeaningRun.optional_weak.
Notation plain_cell := MeaningRun.plain_cell.
Notation same_vars := MeaningRun.same_vars.

Ltac andb := repeat match goal with H : (_ && _)%bool = true |- _ => apply andb_prop in H; destruct H end.

Lemma grows_len h h' : grows h h' -> length h <= length h'.
Proof.
  intros G. destruct (Nat.le_gt_cases (length h) (length h')) as [L|L]; [exact L|]. destruct (nth_error h (length h')) as [c|] eqn:E.
  - apply G, nth_lt in E. lia.
  - apply nth_error_None in E. lia.
Qed.
Lemma grows_t h h' X r F : grows h h' -> at_t h X r F -> at_t h' X r F.
Proof. intros G H. eapply keeps_t; [apply keeps_grows, G|exact H|intros; exact I]. Qed.

(** ** Events *)

Fixpoint fine (S : nat -> Prop) (l : list event) : Prop :=
  match l with
  | [] => True
  | inl x :: l => fine (fun y => S y \/ y = x) l
  | inr x :: l => S x /\ fine S l
  end.
Definition binders (l : list event) : list nat := flat_map (fun e => match e with inl x => [x] | inr _ => [] end) l.
Lemma fine_weak l : forall (S T : nat -> Prop), fine S l -> (forall x, S x -> T x) -> fine T l.
Proof.
  induction l as [|[x|x] l IH]; intros S T H I; [exact H| |]; cbn [fine] in *.
  - eapply IH; [exact H|]. intros y [K|K]; auto.
  - destruct H. eauto.
Qed.
Lemma fine_app l m : forall S, fine S l -> fine (fun x => S x \/ In x (binders l)) m -> fine S (l ++ m).
Proof.
  induction l as [|[x|x] l IH]; intros S A B; cbn [app fine binders flat_map] in *.
  - eapply fine_weak; [exact B|]. intros x [K|[]]. exact K.
  - apply IH; [exact A|]. eapply fine_weak; [exact B|]. intros y [K|[K|K]]; auto.
  - destruct A. split; auto.
Qed.
Lemma fine_app' l m S : fine S l -> fine S m -> fine S (l ++ m).
Proof. intros A B. apply fine_app; [exact A|]. eapply fine_weak; [exact B|]. auto. Qed.
Lemma fine_inv l1 x l2 : forall S, fine S (l1 ++ inr x :: l2) -> S x \/ In (inl x) l1.
Proof.
  induction l1 as [|[y|y] l1 IH]; intros S H; cbn [app fine] in H.
  - left. apply H.
  - destruct (IH _ H) as [[K|K]|K]; [auto|subst; right; left; reflexivity|right; right; exact K].
  - destruct (IH _ (proj2 H)) as [K|K]; [auto|right; right; exact K].
Qed.
Lemma fine_inr (S : nat -> Prop) l : (forall x, In x l -> S x) -> fine S (map inr l).
Proof. induction l as [|x l IH]; intros H; cbn; [exact I|]. split; [apply H; left; reflexivity|apply IH; intros; apply H; right; assumption]. Qed.
Lemma binders_app l m : binders (l ++ m) = binders l ++ binders m.
Proof. apply flat_map_app. Qed.

Lemma events_occurring :
  (forall F x, In x (occurring F) <-> In (inr x) (events F)) /\
  (forall p x, In x (occurring_p p) <-> In (inr x) (events_p p)) /\
  (forall a x, In x (occurring_t a) <-> In (inr x) (events_t a)) /\
  (forall l x, In x (occurring_r l) <-> In (inr x) (events_r l)).
Proof.
  assert (Mp : forall (l : list nat) x, In x l <-> In (@inr nat nat x) (map inr l)).
  { intros l x. rewrite in_map_iff. split; [intros H; exists x; auto|intros (y & E & H); injection E as <-; exact H]. }
  apply forms_ind; intros; cbn [occurring occurring_p occurring_t occurring_r events events_p events_t events_r]; rewrite ?in_app_iff.
  - rewrite H, H0. tauto.
  - rewrite H, H0. tauto.
  - rewrite H. cbn. intuition discriminate.
  - rewrite H, H0. cbn. rewrite in_app_iff. intuition discriminate.
  - apply Mp.
  - apply H.
  - destruct v; apply Mp.
  - tauto.
  - apply H.
  - apply H.
  - tauto.
  - apply H.
  - rewrite H, H0. tauto.
Qed.

(** The nodes that can change are visited in their order. *)
Definition mutb (h : heap) (r : ref) : list ref := match nth_error h r with Some c => if mutable c then [r] else [] | None => [] end.
Lemma muts_property h r p : rprop h r p -> forall f l, visited h f r = Ok l -> flat_map (mutb h) l = [].
Proof.
  intros H. induction H as [r s E|r v T|r x y p q E Hp IHp Hq IHq]; intros f l V.
  - visit. cbn. unfold mutb. rewrite E. reflexivity.
  - rewrite (visit_thing _ _ _ _ _ T _ _ V). destruct T as [r n d fo E N|r n E]; unfold mutb; rewrite E; reflexivity.
  - visit. cbn [flat_map]. unfold mutb at 1. rewrite E. cbn. rewrite flat_map_app, app_nil_r. erewrite IHp, IHq by eassumption. reflexivity.
Qed.
Lemma muts_at h :
  (forall X r F, at_f h X r F -> forall f l, visited h f r = Ok l -> flat_map (mutb h) l = X) /\
  (forall X r F, at_p h X r F -> forall f l, visited h f r = Ok l -> flat_map (mutb h) l = X) /\
  (forall X r F, at_t h X r F -> forall f l, visited h f r = Ok l -> flat_map (mutb h) l = X) /\
  (forall X xs F, at_r h X xs F -> forall f l, flat_res (visited h f) (flat_map olist xs) = Ok l -> flat_map (mutb h) l = X).
Proof.
  apply at_ind; intros; cbn [flat_map olist app] in *; visit; cbn [flat_map];
    rewrite ?flat_map_app, ?app_nil_r;
    try match goal with |- context [mutb h ?r ++ _] => unfold mutb at 1; match goal with E : nth_error h r = Some _ |- _ => rewrite E end; cbn [app mutable] end;
    repeat (f_equal; eauto using muts_property).
  - rewrite (visit_thing _ _ _ _ _ H _ _ H0). destruct H as [r n d fo E N|r n E]; unfold mutb; rewrite E; reflexivity.
  - cbn. unfold mutb. rewrite H. reflexivity.
Qed.
Lemma visited_mut h X r F f l i : at_f h X r F -> visited h f r = Ok l -> In i l -> mut_at h i -> In i X.
Proof.
  intros A V J (c & E & M). rewrite <- (proj1 (muts_at h) _ _ _ A _ _ V). apply in_flat_map. exists i. split; [exact J|]. unfold mutb. rewrite E, M. left. reflexivity.
Qed.

(** What a scan that finds a free variable has found. *)
Lemma scan_true h : forall l bs fl, free_scan h l bs fl = Ok true -> fl = true \/
  exists l1 v l2 n d fo q n' f rs sc, l = l1 ++ v :: l2 /\ nth_error h v = Some (CVariable n (Some d) fo) /\ nth_error h d = Some (CBinding q n' f rs sc) /\ q <> QThe /\ ~ In d bs /\ ~ In d l1.
Proof.
  induction l as [|r l IH]; intros bs fl H; cbn [free_scan] in H; [injection H as ->; auto|].
  assert (Sk : (exists c, nth_error h r = Some c /\ (forall q n f rs sc, c <> CBinding q n f rs sc)) -> free_scan h l bs fl = Ok true -> fl = true \/
    exists l1 v l2 n d fo q n' f rs sc, r :: l = l1 ++ v :: l2 /\ nth_error h v = Some (CVariable n (Some d) fo) /\ nth_error h d = Some (CBinding q n' f rs sc) /\ q <> QThe /\ ~ In d bs /\ ~ In d l1).
  { intros (c & Ec & Nc) H'. destruct (IH _ _ H') as [K|(l1 & v & l2 & n & d & fo & q & n' & f & rs & sc & -> & Ev & Ed & Q & N1 & N2)]; [auto|right].
    exists (r :: l1), v, l2, n, d, fo, q, n', f, rs, sc. repeat (split; [assumption || reflexivity|]). intros [->|K]; [|exact (N2 K)]. rewrite Ec in Ed. injection Ed as ->. eapply Nc. reflexivity. }
  destruct (nth_error h r) as [c|] eqn:E.
  2:{ destruct (IH _ _ H) as [K|(l1 & v & l2 & n & d & fo & q & n' & f & rs & sc & -> & Ev & Ed & Q & N1 & N2)]; [auto|right].
      exists (r :: l1), v, l2, n, d, fo, q, n', f, rs, sc. repeat (split; [assumption || reflexivity|]). intros [->|K]; [|exact (N2 K)]. congruence. }
  destruct c as [q0 n0 f0 rs0 sc0| | |n0 d0 fo0| | | | | |]; try (apply Sk; [eexists; split; [reflexivity|discriminate]|exact H]).
  - destruct (IH _ _ H) as [K|(l1 & v & l2 & n & d & fo & q & n' & f & rs & sc & -> & Ev & Ed & Q & N1 & N2)]; [auto|right].
    exists (r :: l1), v, l2, n, d, fo, q, n', f, rs, sc. repeat (split; [assumption || reflexivity|]). split; [intros K; apply N1; right; exact K|].
    intros [->|K]; [apply N1; left; reflexivity|exact (N2 K)].
  - destruct d0 as [d|]; [|apply Sk; [eexists; split; [reflexivity|discriminate]|exact H]].
    destruct (nth_error h d) as [cd|] eqn:Ed; [|discriminate]. destruct cd as [q n1 f1 rs1 sc1| | | | | | | | |]; try discriminate.
    destruct (IH _ _ H) as [K|(l1 & v & l2 & n & d' & fo & q' & n' & f & rs & sc & -> & Ev & Ed' & Q & N1 & N2)].
    + apply orb_prop in K. destruct K as [K|K]; [auto|right]. apply andb_prop in K. destruct K as [K1 K2].
      exists [], r, l, n0, d, fo0, q, n1, f1, rs1, sc1. repeat (split; [assumption || reflexivity|]). split; [intros ->; discriminate|]. split; [|intros []].
      intros J. apply negb_true_iff in K2. assert (X : memb d bs = true) by (apply existsb_exists; exists d; split; [exact J|apply Nat.eqb_refl]). congruence.
    + right. exists (r :: l1), v, l2, n, d', fo, q', n', f, rs, sc. repeat (split; [assumption || reflexivity|]). intros [->|K]; [congruence|exact (N2 K)].
Qed.

(** ** States *)

Inductive outers (h : heap) : list ref -> list (nat * form) -> list ref -> Prop :=
  | ONil : outers h [] [] []
  | OCons b x rs R l m Y W : nth_error h b = Some (CBinding QThe x false (Some rs) None) -> at_f h Y rs R -> outers h W l m ->
      outers h (b :: Y ++ W) ((x, R) :: l) (b :: m).
Lemma outers_app h W l m W' l' m' : outers h W l m -> outers h W' l' m' -> outers h (W ++ W') (l ++ l') (m ++ m').
Proof. intros A B. induction A; [exact B|]. cbn [app]. rewrite <- app_assoc. econstructor; eassumption. Qed.
Lemma outers_keep h h' (Q : ref -> Prop) W l m : keeps h h' Q -> outers h W l m -> (forall i, In i W -> Q i) -> outers h' W l m.
Proof.
  intros K A. induction A as [|b x rs R l m Y W B F A IH]; intros I; [constructor|]. econstructor.
  - eapply k_same; [exact K|exact B|apply I; left; reflexivity].
  - eapply keeps_f; [exact K|exact F|]. intros i J. apply I. right. apply in_or_app. auto.
  - apply IH. intros i J. apply I. right. apply in_or_app. auto.
Qed.
Lemma outers_mut h W l m i : outers h W l m -> In i W -> mut_at h i.
Proof.
  intros A. induction A as [|b x rs R l m Y W B F A IH]; intros J; [destruct J|]. destruct J as [<-|J]; [eexists; split; [exact B|reflexivity]|].
  apply in_app_or in J. destruct J as [J|J]; [eapply at_mutf; eassumption|auto].
Qed.
Lemma outers_the h W l m x : outers h W l m -> In x (map fst l) -> exists d f rs sc, nth_error h d = Some (CBinding QThe x f rs sc).
Proof. intros A. induction A as [|b y rs R l m Y W B F A IH]; intros J; [destruct J|]. destruct J as [<-|J]; [cbn; eauto|auto]. Qed.

(** The operands of a connection or serial are older than it is. *)
Definition ordered (h : heap) : Prop := forall i c x, nth_error h i = Some c -> In x (older c) -> x < i.
Lemma ordered_snoc h c : ordered h -> (forall x, In x (older c) -> x < length h) -> ordered (h ++ [c]).
Proof. intros O N i d x E J. apply nth_snoc_inv in E. destruct E as [[_ E]|[-> ->]]; [eapply O; eassumption|auto]. Qed.
Lemma ordered_put h b c : ordered h -> older c = [] -> ordered (set_nth b c h).
Proof.
  intros O N i d x E J. destruct (Nat.eq_dec i b) as [->|Ni]; [|rewrite set_nth_other in E by auto; eapply O; eassumption].
  assert (L := nth_lt _ _ _ E). rewrite set_nth_length in L. rewrite set_nth_same in E by exact L. injection E as <-. rewrite N in J. destruct J.
Qed.

Definition onames (t : told) : list nat := map fst (n_outer t).
Record said (t : told) (s : st) (W : list ref) : Prop := Said {
  d_next : n_next t = s_n s;
  d_nums : nums (s_heap s) (s_n s);
  d_lift : Forall2 (fun e b => fst e = fst b /\ num (s_heap s) (snd b) (snd e)) (n_lifted t) (s_lifted s);
  d_outer : outers (s_heap s) W (n_outer t) (s_the s);
  d_lok : forall k x, In (k, x) (n_lifted t) -> In x (onames t);
  d_order : ordered (s_heap s) }.

(** What is the same for the two states apart from the variables. *)
Lemma said_same t s s' W : s_heap s' = s_heap s -> s_n s' = s_n s -> s_lifted s' = s_lifted s -> s_the s' = s_the s -> said t s W -> said t s' W.
Proof. intros A B C D [N Nu L O K Or]. split; rewrite ?A, ?B, ?C, ?D; assumption. Qed.
Lemma said_lt t s W i : said t s W -> In i W -> i < length (s_heap s).
Proof. intros S J. eapply mut_lt, outers_mut; [exact (d_outer _ _ _ S)|exact J]. Qed.

Definition bnames (g : scene) : list nat := map fst (v_bound g).
Record ctx (g : scene) (s : st) : Prop := Ctx {
  k_vars : same_vars (s_heap s) (v_vars g) (s_vars s);
  k_hoa : optional (num (s_heap s)) (hd_error (s_hoa s)) (v_hoa g);
  k_bound : forall x fl, In (x, fl) (v_bound g) -> exists d q f rs sc, nth_error (s_heap s) d = Some (CBinding q x f rs sc) /\ fl = counted q }.
Record closed (g : scene) : Prop := Closed {
  c_vars : forall v x, In (v, x) (v_vars g) -> In x (bnames g);
  c_hoa : forall x, v_hoa g = Some x -> In x (bnames g) }.
Definition inS (g : scene) (t : told) (x : nat) : Prop := In x (bnames g) \/ In x (onames t).
Definition var_in (g : scene) (t : told) (v : thing) : Prop := match v with Bound x _ => inS g t x | Free _ => True end.
Definition args_in (g : scene) (t : told) (l : list (thing * nat)) : Prop := forall v k, In (v, k) l -> var_in g t v.

Record ran (s s' : st) : Prop := Ran { r_grows : grows (s_heap s) (s_heap s'); r_hoa : s_hoa s' = s_hoa s; r_hi : s_hi s' = s_hi s }.
Lemma ran_refl s : ran s s.
Proof. split; auto using grows_refl. Qed.
Lemma ran_trans a b c : ran a b -> ran b c -> ran a c.
Proof. intros [A B C] [A' B' C']. split; [eapply grows_trans; eassumption|congruence..]. Qed.
Lemma ctx_ran g s s' : ctx g s -> ran s s' -> s_vars s' = s_vars s -> ctx g s'.
Proof.
  intros [V H B] [G Hh _] Ev. split; rewrite ?Ev, ?Hh.
  - eapply forall2_weak; [exact V|]. intros x y [P Q]. split; [exact P|eapply num_grows; eassumption].
  - eapply optional_weak; [exact H|]. intros. eapply num_grows; eassumption.
  - intros x fl J. destruct (B _ _ J) as (d & q & f & rs & sc & E & F). eauto 10.
Qed.
Lemma ctx_scope g s x b q f rs sc fl : ctx g s -> nth_error (s_heap s) b = Some (CBinding q x f rs sc) -> fl = counted q -> ctx (in_scope g x fl) s.
Proof. intros [V H B] E F. split; [exact V|exact H|]. intros y fl' [J|J]; [injection J as <- <-; eauto 8|auto]. Qed.
Lemma closed_scope g x fl : closed g -> closed (in_scope g x fl).
Proof. intros [V H]. split; cbn; intros; right; eauto. Qed.
Lemma closed_about g x : closed g -> In x (bnames g) -> closed (about g x).
Proof. intros [V H] J. split; cbn; [exact V|]. intros y E. injection E as <-. exact J. Qed.
Lemma closed_naming g v x fl : closed g -> closed (naming g v x fl).
Proof. intros [V H]. split; cbn; [|intros; right; eauto]. intros w y [J|J]; [injection J as <- <-; left; reflexivity|right; eauto]. Qed.

(** A run from [s] to [s'] makes the nodes [X] that can change, and adds nodes to those of
    theScope. *)
Record steps (s : st) (t : told) (W : list ref) (X : list ref) (s' : st) (t' : told) (W' : list ref) : Prop := Steps {
  z_said0 : said t s W;
  z_ran : ran s s';
  z_names : incl (onames t) (onames t');
  z_said : said t' s' W';
  z_new : exists V, W' = W ++ V /\ fresh (length (s_heap s)) (length (s_heap s')) (X ++ V) }.
Lemma steps_refl s t W : said t s W -> steps s t W [] s t W.
Proof. intros S. split; auto using ran_refl, incl_refl. exists []. rewrite app_nil_r. split; [reflexivity|]. intros i. left. reflexivity. Qed.
Lemma steps_trans s t W X s1 t1 W1 Y s2 t2 W2 : steps s t W X s1 t1 W1 -> steps s1 t1 W1 Y s2 t2 W2 -> steps s t W (X ++ Y) s2 t2 W2.
Proof.
  intros [A0 R N A (V & -> & F)] [_ R' N' B (V' & -> & F')]. split; [exact A0|eapply ran_trans; eassumption|eapply incl_tran; eassumption|exact B|].
  exists (V ++ V'). split; [apply app_assoc_reverse|]. pose proof (grows_len _ _ (r_grows _ _ R)). pose proof (grows_len _ _ (r_grows _ _ R')). fresh_tac.
Qed.
Lemma steps_sub s t W X s' t' W' Y : steps s t W X s' t' W' -> (forall i, cnt Y i <= cnt X i) -> steps s t W Y s' t' W'.
Proof.
  intros [A0 R N A (V & E & F)] S. split; auto. exists V. split; [exact E|]. intros i. specialize (S i). specialize (F i). rewrite cnt_app in *. lia.
Qed.
Lemma steps_next s t W X s' t' W' r : steps s t W X s' t' W' -> In r X -> length (s_heap s) <= r < length (s_heap s').
Proof. intros [_ _ _ _ (V & _ & F)] J. apply cnt_in in J. specialize (F r). rewrite cnt_app in F. lia. Qed.
Lemma steps_once s t W X s' t' W' i : steps s t W X s' t' W' -> cnt X i <= 1.
Proof. intros [_ _ _ _ (V & _ & F)]. specialize (F i). rewrite cnt_app in F. lia. Qed.

(** Only the variables in scope change. *)
Lemma steps_end s t W X s1 t' W' s2 : steps s t W X s1 t' W' -> s_heap s2 = s_heap s1 -> s_n s2 = s_n s1 -> s_lifted s2 = s_lifted s1 -> s_the s2 = s_the s1 ->
  s_hoa s2 = s_hoa s -> s_hi s2 = s_hi s -> steps s t W X s2 t' W'.
Proof.
  intros [A0 R N A (V & E & F)] H1 H2 H3 H4 H5 H6. split; auto.
  - split; [rewrite H1; apply R|assumption..].
  - eapply said_same; [..|exact A]; assumption.
  - exists V. rewrite H1. auto.
Qed.
Lemma steps_start s s0 t W X s1 t' W' : steps s0 t W X s1 t' W' -> s_heap s0 = s_heap s -> s_n s0 = s_n s -> s_lifted s0 = s_lifted s -> s_the s0 = s_the s ->
  s_hoa s1 = s_hoa s -> s_hi s1 = s_hi s -> steps s t W X s1 t' W'.
Proof.
  intros [A0 R N A (V & E & F)] H1 H2 H3 H4 H5 H6. split; auto.
  - eapply said_same; [..|exact A0]; congruence.
  - split; [rewrite <- H1; apply R|assumption..].
  - exists V. rewrite <- H1. auto.
Qed.
Lemma steps_vars s t W X s' t' W' l : steps s t W X s' t' W' -> steps s t W X (with_vs s' l) t' W'.
Proof. intros S. pose proof (z_ran _ _ _ _ _ _ _ S) as R. eapply steps_end; [exact S|reflexivity..|exact (r_hoa _ _ R)|exact (r_hi _ _ R)]. Qed.

Lemma said_move t s s' i W : said t s W -> grows (s_heap s) (s_heap s') -> nums (s_heap s') (s_n s') -> ordered (s_heap s') -> i = s_n s' -> s_lifted s' = s_lifted s -> s_the s' = s_the s -> said (up_to t i) s' W.
Proof.
  intros [N Nu L O K Or] G Nu' Or' -> El Eo. split; cbn [up_to n_next n_lifted n_outer]; [reflexivity|exact Nu'| | |exact K|exact Or'].
  - rewrite El. eapply forall2_weak; [exact L|]. intros x y [A B]. split; [exact A|eapply num_grows; eassumption].
  - rewrite Eo. eapply outers_keep; [apply keeps_grows, G|exact O|]. intros; exact I.
Qed.
Lemma up_same t : up_to t (n_next t) = t.
Proof. destruct t; reflexivity. Qed.

Lemma steps_made c s z s' t W : alloc c s = Ok (z, s') -> plain_cell c = true -> (forall x, In x (older c) -> x < length (s_heap s)) -> said t s W ->
  steps s t W [z] s' t W /\ nth_error (s_heap s') z = Some c /\ s_vars s' = s_vars s.
Proof.
  intros A P Ol S. apply alloc_ok in A. destruct A as [-> ->]. split; [|split; [apply nth_snoc|reflexivity]]. split; [exact S|split; [apply grows_snoc|reflexivity..]|apply incl_refl| |].
  - rewrite <- (up_same t). apply said_move with (s := s); try reflexivity; [exact S|apply grows_snoc| | |exact (d_next _ _ _ S)].
    + apply nums_plain; [exact (d_nums _ _ _ S)| |]; intros; intros ->; discriminate.
    + apply ordered_snoc; [exact (d_order _ _ _ S)|exact Ol].
  - exists []. rewrite app_nil_r. split; [reflexivity|]. cbn [with_heap s_heap]. rewrite app_length. cbn [length]. fresh_tac.
Qed.
Definition loose (c : cell) : bool := plain_cell c && match c with CConnection _ _ _ | CSerial _ _ => false | _ => true end.
Lemma steps_alloc c s z s' t W : alloc c s = Ok (z, s') -> loose c = true -> said t s W ->
  steps s t W [z] s' t W /\ nth_error (s_heap s') z = Some c /\ s_vars s' = s_vars s.
Proof. intros A P S. apply andb_prop in P. destruct P as [P Q]. eapply steps_made; try eassumption. destruct c; try discriminate Q; intros ? []. Qed.
Lemma steps_conn k x y s z s' t W : alloc (CConnection k x y) s = Ok (z, s') -> x < length (s_heap s) -> y < length (s_heap s) -> said t s W ->
  steps s t W [z] s' t W /\ nth_error (s_heap s') z = Some (CConnection k x y) /\ s_vars s' = s_vars s.
Proof. intros A Lx Ly S. eapply steps_made; try eassumption; [reflexivity|]. intros i [<-|[<-|[]]]; assumption. Qed.
Lemma steps_serial x y s z s' t W : alloc (CSerial x y) s = Ok (z, s') -> x < length (s_heap s) -> y < length (s_heap s) -> said t s W ->
  steps s t W [] s' t W /\ nth_error (s_heap s') z = Some (CSerial x y) /\ s_vars s' = s_vars s.
Proof.
  intros A Lx Ly S. destruct (steps_made _ _ _ _ t W A eq_refl ltac:(intros i [<-|[<-|[]]]; assumption) S) as (T & N & V).
  split; [|auto]. eapply steps_sub; [exact T|]. intros i. rewrite cnt_nil. lia.
Qed.
Lemma steps_leaf c s z s' t W : alloc c s = Ok (z, s') -> loose c = true -> said t s W ->
  steps s t W [] s' t W /\ nth_error (s_heap s') z = Some c /\ s_vars s' = s_vars s.
Proof. intros A P S. destruct (steps_alloc _ _ _ _ _ _ A P S) as (T & N & V). split; [|auto]. eapply steps_sub; [exact T|]. intros i. rewrite cnt_nil. lia. Qed.
Lemma steps_free s x s1 z s' t W : new_var s = Ok (x, s1) -> alloc (CVariable x None false) s1 = Ok (z, s') -> said t s W ->
  steps s t W [] s' (up_to t (S (n_next t))) W /\ rthing (s_heap s') z (Free (n_next t)) /\ s_vars s' = s_vars s.
Proof.
  intros N A S. injection N as <- <-. apply alloc_ok in A. destruct A as [-> ->]. cbn [s_heap with_heap s_vars] in *. rewrite (d_next _ _ _ S).
  split; [|split; [constructor 2; apply nth_snoc|reflexivity]]. split; [exact S|split; [apply grows_snoc|reflexivity..]|apply incl_refl| |].
  - apply said_move with (s := s); try reflexivity; [exact S|apply grows_snoc| |]; [apply nums_var, (d_nums _ _ _ S)|apply ordered_snoc; [exact (d_order _ _ _ S)|intros ? []]].
  - exists []. rewrite app_nil_r. split; [reflexivity|]. intros i. left. reflexivity.
Qed.
Lemma steps_new c s x s1 z s' t W : new_var s = Ok (x, s1) -> alloc (c x) s1 = Ok (z, s') -> (exists q f rs sc, c x = CBinding q x f rs sc) -> said t s W ->
  steps s t W [z] s' (up_to t (S (n_next t))) W /\ x = n_next t /\ nth_error (s_heap s') z = Some (c x) /\ s_vars s' = s_vars s.
Proof.
  intros N A (q & f & rs & sc & Ec) S. injection N as <- <-. apply alloc_ok in A. destruct A as [-> ->]. cbn [s_heap with_heap s_vars] in *. rewrite (d_next _ _ _ S).
  split; [|split; [reflexivity|split; [apply nth_snoc|reflexivity]]]. split; [exact S|split; [apply grows_snoc|reflexivity..]|apply incl_refl| |].
  - apply said_move with (s := s); try reflexivity; [exact S|apply grows_snoc| |]; rewrite Ec; [apply nums_binding, (d_nums _ _ _ S)|apply ordered_snoc; [exact (d_order _ _ _ S)|intros ? []]].
  - exists []. rewrite app_nil_r. split; [reflexivity|]. cbn [with_heap s_heap]. rewrite app_length. cbn [length]. fresh_tac.
Qed.
Lemma steps_binding q fo s b a s' t W : new_binding q fo s = Ok (b, a, s') -> said t s W ->
  steps s t W [b] s' (up_to t (S (n_next t))) W /\ nth_error (s_heap s') b = Some (CBinding q (n_next t) false None None) /\ rthing (s_heap s') a (Bound (n_next t) fo) /\ s_vars s' = s_vars s.
Proof.
  unfold new_binding. intros H S. minv H. minv H. minv H. minv H. injection H as <- <-. subst.
  destruct (steps_new (fun x => CBinding q x false None None) _ _ _ _ _ _ _ E E0 ltac:(eauto 6) S) as (T & -> & N & V).
  destruct (steps_leaf _ _ _ _ _ _ E1 eq_refl (z_said _ _ _ _ _ _ _ T)) as (T2 & N2 & V2). assert (G := r_grows _ _ (z_ran _ _ _ _ _ _ _ T2)).
  split; [exact (steps_trans _ _ _ _ _ _ _ _ _ _ _ T T2)|]. split; [apply G, N|]. split; [|congruence]. econstructor 1; [exact N2|]. eapply num_grows; [exact G|]. eexists _, _, _, _. exact N.
Qed.

(** A binding that was made changes, except for its number. *)
Lemma steps_put s t W X s1 t1 W1 b q n f rs sc q' f' rs' sc' : steps s t W X s1 t1 W1 -> In b X -> nth_error (s_heap s1) b = Some (CBinding q n f rs sc) ->
  steps s t W X (put s1 b (CBinding q' n f' rs' sc')) t1 W1 /\ nth_error (s_heap (put s1 b (CBinding q' n f' rs' sc'))) b = Some (CBinding q' n f' rs' sc') /\
  keeps (s_heap s1) (s_heap (put s1 b (CBinding q' n f' rs' sc'))) (fun i => i <> b).
Proof.
  intros S J B. assert (Lb := steps_next _ _ _ _ _ _ _ _ S J). destruct S as [A0 R N A (V & -> & F)].
  assert (K : keeps (s_heap s1) (s_heap (put s1 b (CBinding q' n f' rs' sc'))) (fun i => i <> b)).
  { eapply keeps_put; [exact B|reflexivity|]. intros ? ? ? ? ? E. injection E as <- <- <- <- <-. eauto 6. }
  split; [|split; [apply set_nth_same; eapply nth_lt, B|exact K]]. split; [exact A0| |exact N| |].
  - destruct R as [G Hh Hi]. split; [|exact Hh|exact Hi]. intros i c E. cbn [put with_heap s_heap]. rewrite set_nth_other; [apply G, E|]. apply nth_lt in E. lia.
  - destruct A as [Nx Nu L O K' Or]. split; cbn [put with_heap s_heap s_n s_lifted s_the]; [exact Nx|eapply nums_put; eassumption| | |exact K'|apply ordered_put; [exact Or|reflexivity]].
    + eapply forall2_weak; [exact L|]. intros x y [P Q]. split; [exact P|]. apply (k_num _ _ _ K), Q.
    + eapply outers_keep; [exact K|exact O|]. intros i I ->. apply in_app_or in I. destruct I as [I|I]; [apply (said_lt _ _ _ _ A0) in I; lia|].
      apply cnt_in in I, J. specialize (F b). rewrite cnt_app in F. lia.
  - exists V. split; [reflexivity|]. cbn [put with_heap s_heap]. rewrite set_nth_length. exact F.
Qed.

(** A binding moves to theScope. *)
Lemma steps_the s t W b Y X s1 t1 W1 x rs R u s2 : steps s t W (b :: Y ++ X) s1 t1 W1 -> nth_error (s_heap s1) b = Some (CBinding QThe x false (Some rs) None) ->
  at_f (s_heap s1) Y rs R -> add_the b s1 = Ok (u, s2) -> steps s t W X s2 (bound_outside t1 x R) (W1 ++ b :: Y).
Proof.
  intros [A0 Rn N A (V & -> & F)] B Ar H. unfold add_the in H. inversion H; subst; clear H. split; [exact A0|destruct Rn; split; assumption| | |].
  - intros y J. unfold onames. cbn [bound_outside n_outer]. rewrite map_app. apply in_or_app. left. apply N, J.
  - destruct A as [Nx Nu L O K' Or]. split; cbn [bound_outside n_next n_lifted n_outer s_heap s_n s_lifted s_the]; [exact Nx|exact Nu|exact L| | |exact Or].
    + apply outers_app; [exact O|]. rewrite <- (app_nil_r Y). econstructor; [exact B|exact Ar|constructor].
    + intros k y J. unfold onames. cbn [bound_outside n_outer]. rewrite map_app. apply in_or_app. left. exact (K' _ _ J).
  - exists (V ++ b :: Y). split; [symmetry; apply app_assoc|]. cbn [s_heap]. fresh_tac.
Qed.

(** hasFreeVars tells whether a variable in scope occurs. *)
Lemma free_spec vf s0 s r l fr X F g t W : ctx g s0 -> grows (s_heap s0) (s_heap s) -> said t s W ->
  visited (s_heap s) vf r = Ok l -> free_scan (s_heap s) l [] false = Ok fr ->
  flat_map (event_of (s_heap s)) l = F -> flat_map (mutb (s_heap s)) l = X ->
  (forall v n d fo, In v l -> nth_error (s_heap s) v = Some (CVariable n (Some d) fo) -> num (s_heap s) d n) ->
  (forall i, In i X -> length (s_heap s0) <= i) -> fine (inS g t) F ->
  fr = existsb (fun b => (snd b : bool) && existsb (fun e => match e with inr y => Nat.eqb (fst b) y | inl _ => false end) F) (v_bound g).
Proof.
  intros C G S V Sc Ev Mu Vn Xn Fi. assert (Nu := d_nums _ _ _ S). destruct fr.
  - symmetry. destruct (scan_true _ _ _ _ Sc) as [K|(l1 & v & l2 & n & d & fo & q & n' & f & rs & sc & -> & Nv & Nd & Q & _ & N2)]; [discriminate|].
    assert (Nn : num (s_heap s) d n) by (eapply Vn; [apply in_elt|exact Nv]).
    assert (n' = n) by (destruct Nn as (q1 & f1 & rs1 & sc1 & K); congruence). subst n'.
    rewrite flat_map_app in Ev. cbn [flat_map] in Ev. unfold event_of at 2 in Ev. rewrite Nv in Ev. cbn [app] in Ev. subst F.
    destruct (fine_inv _ _ _ _ Fi) as [[K|K]|K].
    + unfold bnames in K. apply in_map_iff in K. destruct K as ([y fl] & <- & K). apply existsb_exists. exists (y, fl). split; [exact K|]. cbn [fst snd] in *.
      destruct (k_bound _ _ C _ _ K) as (d1 & q1 & f1 & rs1 & sc1 & E1 & ->). apply G in E1.
      assert (d1 = d) by (eapply (u_one _ _ Nu); [eexists _, _, _, _; exact E1|exact Nn]). subst d1. rewrite Nd in E1. injection E1 as <- <- <- <-.
      apply andb_true_intro. split; [destruct q; [contradiction Q; reflexivity|reflexivity..]|]. apply existsb_exists. exists (inr y). split; [apply in_elt|apply Nat.eqb_refl].
    + destruct (outers_the _ _ _ _ _ (d_outer _ _ _ S) K) as (d1 & f1 & rs1 & sc1 & E1).
      assert (d1 = d) by (eapply (u_one _ _ Nu); [eexists _, _, _, _; exact E1|exact Nn]). subst d1. rewrite Nd in E1. injection E1 as -> _ _ _. contradiction Q. reflexivity.
    + apply in_flat_map in K. destruct K as (d1 & I1 & K). unfold event_of in K. destruct (nth_error (s_heap s) d1) as [c|] eqn:E1; [|destruct K].
      destruct c as [q1 n1 f1 rs1 sc1| | |? [?|] ?| | | | | |]; try (destruct K; fail); try (destruct K as [K|[]]; discriminate). destruct K as [K|[]]. injection K as ->.
      assert (d1 = d) by (eapply (u_one _ _ Nu); [eexists _, _, _, _; exact E1|exact Nn]). subst d1. contradiction.
  - destruct (existsb _ (v_bound g)) eqn:De; [|reflexivity]. exfalso. apply existsb_exists in De. destruct De as ([x fl] & J & De). cbn [fst snd] in De. apply andb_prop in De. destruct De as [-> De].
    apply existsb_exists in De. destruct De as ([y|y] & K & De); [discriminate|]. apply Nat.eqb_eq in De. subst y.
    destruct (k_bound _ _ C _ _ J) as (d & q & f & rs & sc & E1 & Cq). assert (Ld := nth_lt _ _ _ E1). apply G in E1.
    rewrite <- Ev in K. apply in_flat_map in K. destruct K as (v & Iv & K). unfold event_of in K. destruct (nth_error (s_heap s) v) as [c|] eqn:Ec; [|destruct K].
    destruct c as [? ? ? ? ?| | |n [d1|] fo| | | | | |]; try (destruct K; fail); try (destruct K as [K|[]]; discriminate). destruct K as [K|[]]. injection K as ->.
    assert (Nd1 := Vn _ _ _ _ Iv Ec). assert (d1 = d) by (eapply (u_one _ _ Nu); [exact Nd1|eexists _, _, _, _; exact E1]). subst d1.
    destruct (scan_false _ _ _ Sc _ _ _ _ Iv Ec) as (q1 & n1 & f1 & rs1 & sc1 & N1 & [Z|[[]|Z]]).
    + rewrite E1 in N1. injection N1 as <- <- <- <- <-. subst q. discriminate.
    + assert (In d X). { rewrite <- Mu. apply in_flat_map. exists d. split; [exact Z|]. unfold mutb. rewrite E1. left. reflexivity. }
      apply Xn in H. lia.
Qed.
