(** The methods of the interpreter on first-order sentences. *)

From Coq Require Import String NArith List Bool Arith Lia.
From Verif Require Import Base PegSyntax Ast AstSorts Logic LogicWords LogicSpec ScopeSpec Interp OrderFacts SeqFacts TermFacts ScopeFacts ScopeInterp.
From Verif Require SafeBase.
Import ListNotations.
Open Scope string_scope.
Open Scope list_scope.
Open Scope nat_scope.

(** ** hasFreeVars *)

Inductive reach (h : heap) : ref -> ref -> Prop :=
  | RHere r : reach h r r
  | RStep r x y : child h r x -> reach h x y -> reach h r y.

Lemma flat_in {A B} (f : A -> res (list B)) : forall l v y, flat_res f l = Ok v -> In y v -> exists x w, In x l /\ f x = Ok w /\ In y w.
Proof.
  induction l as [|a l IH]; intros v y E I; cbn [flat_res] in E; [injection E as <-; contradiction|].
  destruct (f a) as [w| |] eqn:Fa; cbn [bind] in E; try discriminate. destruct (flat_res f l) as [v'| |]; cbn [bind] in E; try discriminate.
  injection E as <-. apply in_app_or in I. destruct I as [I|I]; [exists a, w; cbn; auto|]. destruct (IH _ _ eq_refl I) as (x & w' & X & Y & Z). exists x, w'. cbn; auto.
Qed.
Lemma flat_all {A B} (f : A -> res (list B)) : forall l v x, flat_res f l = Ok v -> In x l -> exists w, f x = Ok w /\ incl w v.
Proof.
  induction l as [|a l IH]; intros v x E I; [contradiction|]. cbn [flat_res] in E.
  destruct (f a) as [w| |] eqn:Fa; cbn [bind] in E; try discriminate. destruct (flat_res f l) as [v'| |]; cbn [bind] in E; try discriminate.
  injection E as <-. destruct I as [<-|I]; [exists w; split; [exact Fa|apply incl_appl, incl_refl]|]. destruct (IH _ _ eq_refl I) as (w' & X & Y).
  exists w'. split; [exact X|apply incl_appr, Y].
Qed.
Lemma visited_reach h : forall f r l x, visited h f r = Ok l -> In x l -> reach h r x.
Proof.
  induction f as [|f IH]; intros r l x E I; [discriminate|]. cbn [visited] in E. destruct (nth_error h r) as [c|] eqn:N; [|discriminate].
  destruct (flat_res (visited h f) (below c)) as [v| |] eqn:Fl; cbn [bind] in E; try discriminate. injection E as <-.
  destruct I as [<-|I]; [constructor|]. destruct (flat_in _ _ _ _ Fl I) as (y & w & Y & V & J). econstructor 2; [exists c; eauto|]. eapply IH; eassumption.
Qed.
Lemma visited_free h : forall f r l d, visited h f r = Ok l -> free h r d -> exists v n fo, In v l /\ nth_error h v = Some (CVariable n (Some d) fo).
Proof.
  intros f r l d E K. revert f l E. induction K as [r n d fo N|r c x d N I K IH _]; intros f l E; (destruct f; [discriminate|]); cbn [visited] in E; rewrite N in E.
  - cbn in E. injection E as <-. exists r, n, fo. split; [left; reflexivity|exact N].
  - destruct (flat_res (visited h f) (below c)) as [v| |] eqn:Fl; cbn [bind] in E; try discriminate. injection E as <-.
    destruct (flat_all _ _ _ _ Fl I) as (w & V & J). destruct (IH _ _ V) as (y & n & fo & Y & Ny). exists y, n, fo. split; [right; apply J, Y|exact Ny].
Qed.
Lemma scan_true h : forall l bs, free_scan h l bs true <> Ok false.
Proof.
  induction l as [|r l IH]; intros bs; cbn [free_scan]; [discriminate|]. destruct (nth_error h r) as [c|]; [|apply IH]. destruct c; try apply IH.
  destruct def as [d|]; [|apply IH]. destruct (nth_error h d) as [c|]; [|discriminate]. destruct c; try discriminate. apply IH.
Qed.
Lemma scan_false h : forall l bs, free_scan h l bs false = Ok false -> forall v n d fo, In v l -> nth_error h v = Some (CVariable n (Some d) fo) ->
  exists q n' f rs sc, nth_error h d = Some (CBinding q n' f rs sc) /\ (q = QThe \/ In d bs \/ In d l).
Proof.
  induction l as [|r l IH]; intros bs E v n d fo I N; [contradiction|]. cbn [free_scan] in E. destruct I as [->|I].
  - rewrite N in E. destruct (nth_error h d) as [c|] eqn:D; [|discriminate]. destruct c; try discriminate.
    eexists _, _, _, _, _. split; [reflexivity|]. destruct (memb d bs) eqn:M.
    + right. left. unfold memb in M. apply existsb_exists in M. destruct M as (y & Y & Q). apply Nat.eqb_eq in Q. subst. exact Y.
    + destruct q; try (left; reflexivity); exfalso; exact (scan_true _ _ _ E).
  - assert (K : exists bs', free_scan h l bs' false = Ok false /\ forall x, In x bs' -> In x bs \/ x = r).
    { destruct (nth_error h r) as [c|]; [|exists bs; auto].
      destruct c; try (exists bs; split; [exact E|auto]; fail).
      - exists (r :: bs). split; [exact E|]. intros x [<-|X]; auto.
      - destruct def as [d'|]; [|exists bs; auto]. destruct (nth_error h d') as [c|]; [|discriminate]. destruct c; try discriminate.
        exists bs. split; [|auto]. cbn [orb] in E. destruct (negb _ && negb _)%bool; [exfalso; exact (scan_true _ _ _ E)|exact E]. }
    destruct K as (bs' & E' & S). destruct (IH _ E' _ _ _ _ I N) as (q & n' & f & rs & sc & D & K).
    exists q, n', f, rs, sc. split; [exact D|]. destruct K as [K|[K|K]]; [auto| |right; right; right; exact K].
    destruct (S _ K) as [J| ->]; [auto|right; right; left; reflexivity].
Qed.
Lemma reach_new h0 h r x : wf h -> ScopeFacts.fresh h0 h -> reach h r x -> (length h0 <= r \/ ~ stmt h r) -> length h0 <= x \/ ~ stmt h x.
Proof.
  intros W F K. induction K as [r|r y x (c & N & I) K IH]; intros H; [exact H|]. apply IH. destruct (w_kind _ W _ _ _ N I) as (c' & N' & S).
  destruct (is_stmt c') eqn:Sc.
  - left. assert (Sr : stmt h r) by (exists c; split; [exact N|destruct c; try discriminate; reflexivity]).
    destruct H as [H|H]; [|contradiction]. eapply (f_new _ _ F); [exact H|exists c; eauto|]. exists c'. auto.
  - right. intros (c2 & E & S2). congruence.
Qed.

Lemma no_free vf s0 b s s' (V : ref -> Prop) : has_free_vars vf b s = Ok (false, s') -> made s0 s V b ->
  (forall d, V d -> d < length (s_heap s0) /\ exists q n f rs sc, nth_error (s_heap s) d = Some (CBinding q n f rs sc) /\ q <> QThe) ->
  s' = s /\ forall d, free (s_heap s) b d -> In d (s_the s).
Proof.
  unfold has_free_vars. intros E M Hv. destruct (visited (s_heap s) vf b) as [l| |] eqn:Vi; cbn [bind] in E; try discriminate.
  destruct (free_scan (s_heap s) l [] false) as [[]| |] eqn:Sc; cbn [bind] in E; try discriminate. injection E as <-. split; [reflexivity|].
  intros d D. destruct (m_free _ _ _ _ M _ D) as [K|K]; [|exact K]. exfalso.
  destruct (Hv _ K) as (Lt & q & n & f & rs & sc & N & Q). destruct (visited_free _ _ _ _ _ Vi D) as (v & n1 & fo & I & Nv).
  destruct (scan_false _ _ _ Sc _ _ _ _ I Nv) as (q1 & n2 & f2 & rs2 & sc2 & N2 & [X|[[]|X]]); [congruence|].
  apply (visited_reach _ _ _ _ _ Vi) in X. eapply reach_new in X; [|exact (g_wf _ _ _ _ (m_good _ _ _ _ M))|exact (e_fresh _ _ _ _ _ _ _ _ (m_ext _ _ _ _ M))|].
  - destruct X as [X|X]; [lia|]. apply X. eexists. split; [exact N|reflexivity].
  - left. exact (m_new _ _ _ _ M).
Qed.

(** ** The methods *)

Definition env (s : st) (E : ref -> Prop) : Prop := forall v b, In (v, b) (s_vars s) -> E b.
Definition hoa_in (s : st) (E : ref -> Prop) : Prop := forall d, hd_error (s_hoa s) = Some d -> E d.
Definition args_in (s : st) (E : ref -> Prop) (a : args) : Prop := forall x p, In (x, p) a -> atom (s_heap s) (The s E) x.

Lemma env_same s s' E : s_vars s' = s_vars s -> env s E -> env s' E.
Proof. unfold env. intros ->. auto. Qed.
Lemma hoa_ext s s' E : ext s s' -> hoa_in s E -> hoa_in s' E.
Proof. unfold hoa_in. intros X. rewrite (e_hoa _ _ _ _ _ _ _ _ X). auto. Qed.
Lemma atom_The s s' E x : atom (s_heap s) (The s E) x -> good s -> ext s s' -> atom (s_heap s') (The s' E) x.
Proof. intros A G X. eapply atom_weak; [eapply atom_ext; eassumption|]. intros d [K|K]; [left; exact K|right; eapply ext_the; eassumption]. Qed.
Lemma args_ext s s' E a : args_in s E a -> good s -> ext s s' -> args_in s' E a.
Proof. intros A G X x p I. eapply atom_The; [eapply A, I|exact G|exact X]. Qed.
Lemma args_weak s (E E' : ref -> Prop) a : args_in s E a -> (forall d, E d -> E' d) -> args_in s E' a.
Proof. intros A I x p J. eapply atom_weak; [eapply A, J|]. intros d [K|K]; [left; auto|right; exact K]. Qed.

Definition with_vs (s : st) (vs : list (string * ref)) : st := St (s_heap s) (s_n s) (s_the s) (s_hi s) (s_lifted s) (s_hoa s) vs.
Lemma with_vars_inv {A} (m : Interp.M A) s a s' : with_vars m s = Ok (a, s') -> exists s1, m s = Ok (a, s1) /\ s' = with_vs s1 (s_vars s).
Proof.
  unfold with_vars. intros E. apply mbind_ok in E. destruct E as (vs & s0 & E0 & E). injection E0 as <- <-.
  apply mbind_ok in E. destruct E as (b & s1 & E1 & E). apply mbind_ok in E. destruct E as (u & s2 & E2 & E).
  apply ret_ok in E. destruct E as [<- <-]. injection E2 as <- <-. exists s1. auto.
Qed.
Lemma with_vs_made s s1 E x : good s -> made s s1 E x -> made s (with_vs s1 (s_vars s)) E x.
Proof.
  intros Gs [G X N S O T F]. split; try assumption. destruct G as [W Th L V]. split; try assumption.
  eapply vars_ok_fresh; [exact (e_fresh _ _ _ _ _ _ _ _ X)|exact (g_vars _ _ _ _ Gs)].
Qed.

Lemma conn2 s s1 s2 E c x y z s3 : made s s1 E x -> made s1 s2 E y -> alloc (CConnection c x y) s2 = Ok (z, s3) ->
  made s s3 E z /\ s_vars s3 = s_vars s2.
Proof.
  intros Mx My A. eapply alloc_connection; [exact A| | |].
  - eapply made_later; [exact Mx|exact (m_ext _ _ _ _ My)|exact (m_good _ _ _ _ My)].
  - eapply made_earlier; [exact (m_good _ _ _ _ Mx)|exact (m_ext _ _ _ _ Mx)|exact My].
  - pose proof (stmt_lt _ _ (m_stmt _ _ _ _ Mx)). pose proof (m_new _ _ _ _ My). lia.
Qed.

Fixpoint pall (P : ref -> Prop) (p : pcon) : Prop :=
  match p with PPred r => P r | PConn _ l r => pall P l /\ pall P r end.
Lemma pall_weak (P Q : ref -> Prop) p : pall P p -> (forall r, P r -> Q r) -> pall Q p.
Proof. induction p; cbn; [auto|]. intros [A B] I. auto. Qed.

Lemma distribute_made E a : forall p s z s', distribute_predication p a s = Ok (z, s') -> good s ->
  pall (atom (s_heap s) (The s E)) p -> args_in s E a -> made s s' E z /\ s_vars s' = s_vars s.
Proof.
  induction p as [r|c l IHl r IHr]; intros s z s' H G P A; cbn [distribute_predication] in H.
  - minv H. unfold lift in E0. destruct (order_arguments a) as [o| |] eqn:Oa; try discriminate. injection E0 as <- <-.
    eapply alloc_predication; [exact H|exact G|exact P|]. intros x I. destruct (SafeBase.ordered_in _ _ _ Oa I) as (p & J). eapply A, J.
  - destruct P as [Pl Pr]. minv H. minv H. destruct (IHl _ _ _ E0 G Pl A) as (M1 & V1).
    assert (G1 := m_good _ _ _ _ M1). assert (X1 := m_ext _ _ _ _ M1).
    assert (Pr' : pall (atom (s_heap s0) (The s0 E)) r) by (eapply pall_weak; [exact Pr|]; intros y K; eapply atom_The; eassumption).
    destruct (IHr _ _ _ E1 G1 Pr' (args_ext _ _ _ _ A G X1)) as (M2 & V2).
    destruct (conn2 _ _ _ _ _ _ _ _ _ M1 M2 H) as (M & V). split; [exact M|congruence].
Qed.

(** Predicates. *)
Definition pmade (s s' : st) (E : ref -> Prop) (p : pcon) : Prop :=
  good s' /\ ext s s' /\ s_vars s' = s_vars s /\ pall (atom (s_heap s') E) p.

Lemma serial_right_made E l : forall r s z s', serial_right l r s = Ok (z, s') -> good s -> atom (s_heap s) E l ->
  pall (atom (s_heap s) E) r -> pmade s s' E z.
Proof.
  induction r as [r|c r1 IH1 r2 IH2]; intros s z s' H G L R; cbn [serial_right] in H.
  - minv H. minv H. subst. destruct (alloc_leaf _ _ _ _ E E0 G eq_refl eq_refl) as (G' & X & V & A & _);
      [intros x [<-|[<-|[]]]; assumption|discriminate|]. unfold pmade; cbn [pall]; auto.
  - destruct R as [R1 R2]. minv H. minv H. minv H. subst. destruct (IH1 _ _ _ E0 G L R1) as (G1 & X1 & V1 & P1).
    destruct (IH2 _ _ _ E1 G1) as (G2 & X2 & V2 & P2); [eapply atom_ext; eassumption|eapply pall_weak; [exact R2|]; intros y K; eapply atom_ext; eassumption|].
    split; [exact G2|]. split; [exact (ext_trans _ _ _ G1 X1 X2)|]. split; [congruence|]. split; [|exact P2].
    eapply pall_weak; [exact P1|]. intros y K. eapply atom_ext; eassumption.
Qed.
Lemma serial_left_made E r : forall l s z s', serial_left l r s = Ok (z, s') -> good s -> pall (atom (s_heap s) E) l ->
  pall (atom (s_heap s) E) r -> pmade s s' E z.
Proof.
  induction l as [l|c l1 IH1 l2 IH2]; intros s z s' H G L R; cbn [serial_left] in H; [eapply serial_right_made; eassumption|].
  destruct L as [L1 L2]. minv H. minv H. minv H. subst. destruct (IH1 _ _ _ E0 G L1 R) as (G1 & X1 & V1 & P1).
  destruct (IH2 _ _ _ E1 G1) as (G2 & X2 & V2 & P2); [eapply pall_weak; [exact L2|]; intros y K; eapply atom_ext; eassumption|eapply pall_weak; [exact R|]; intros y K; eapply atom_ext; eassumption|].
  split; [exact G2|]. split; [exact (ext_trans _ _ _ G1 X1 X2)|]. split; [congruence|]. split; [|exact P2].
  eapply pall_weak; [exact P1|]. intros y K. eapply atom_ext; eassumption.
Qed.

Lemma lookup_ok v s x d s' E : lookup_var v s = Ok (x, d, s') -> env s E ->
  s_heap s' = s_heap s /\ s_the s' = s_the s /\ s_hi s' = s_hi s /\ s_lifted s' = s_lifted s /\ s_hoa s' = s_hoa s /\ s_vars s' = s_vars s /\
  forall r, d = Some r -> E r.
Proof.
  unfold lookup_var. intros H V. destruct (find _ (s_vars s)) as [[v' r]|] eqn:Fi.
  - minv H. apply get_binding_ok in E0. destruct E0 as [-> _]. minv H. injection H as <- <-. subst s'. repeat match goal with |- _ /\ _ => split end; try reflexivity.
    intros r' X. injection X as <-. apply find_some in Fi. eapply V, (proj1 Fi).
  - minv H. injection E0 as <- <-. minv H. injection H as <- <-. subst s'. repeat match goal with |- _ /\ _ => split end; try reflexivity. discriminate.
Qed.

Section Run.
Variables (U : unicode) (ol : list (N * N)) (vf : nat).
Notation fo := (first_order U ol).

Record argd (s s' : st) (E : ref -> Prop) (bo : option ref) (x : ref) : Prop := Argd {
  a_good : good s';
  a_ext : ext s s';
  a_atom : atom (s_heap s') (The s' (Or E (fun d => bo = Some d))) x;
  a_bo : match bo with
         | None => s_vars s' = s_vars s
         | Some b => made s s' E b /\ (exists q n f r, nth_error (s_heap s') b = Some (CBinding q n f r None)) /\
                     (s_vars s' = s_vars s \/ exists v, s_vars s' = (v, b) :: s_vars s)
         end }.

Record specs (self : forall A, call A -> Interp.M A) : Prop := Specs {
  p_sent : forall n s x s' E, self _ (KSentence n) s = Ok (x, s') -> fo n = true -> good s -> env s E -> hoa_in s E ->
    made s s' E x /\ s_vars s' = s_vars s;
  p_sub : forall n s x s' E, self _ (KSubordinate n) s = Ok (x, s') -> fo n = true -> good s -> env s E -> hoa_in s E ->
    made s s' E x /\ s_vars s' = s_vars s;
  p_stmt : forall a n s x s' E, self _ (KStatement a n) s = Ok (x, s') -> fo n = true -> good s -> env s E -> hoa_in s E -> args_in s E a ->
    made s s' E x /\ s_vars s' = s_vars s;
  p_pren : forall a n bi ts s x ts' s' E, self _ (KPrenex a n bi ts) s = Ok (x, ts', s') -> fo n = true -> forallb fo ts = true ->
    good s -> env s E -> hoa_in s E -> args_in s E a ->
    made s s' E x /\ s_vars s' = s_vars s /\ forallb fo ts' = true;
  p_pred : forall n s p s' E, self _ (KPredicate n) s = Ok (p, s') -> fo n = true -> good s -> env s E -> pmade s s' E p;
  p_arg : forall f q p rel s bo x s' E, self _ (KPredArg f q p rel) s = Ok (bo, x, s') -> fo (NPredArg f q p rel) = true ->
    good s -> env s E -> hoa_in s E -> argd s s' E bo x;
  p_rel : forall bo n s x s' (E : ref -> Prop), self _ (KRelative bo n) s = Ok (x, s') -> fo n = true -> good s -> env s E ->
    match bo with Some b => E b | None => hoa_in s E end ->
    made s s' E x /\ s_vars s' = s_vars s }.

Section Step.
Variable self : forall A, call A -> Interp.M A.
Hypothesis IH : specs self.

Ltac andb := repeat match goal with H : (_ && _)%bool = true |- _ => apply andb_prop in H; destruct H end.

Lemma sentence_spec n s x s' E : do_sentence U self n s = Ok (x, s') -> fo n = true -> good s -> env s E -> hoa_in s E ->
  made s s' E x /\ s_vars s' = s_vars s.
Proof.
  intros H Fo G V Ho. destruct n; try discriminate; cbn [do_sentence first_order] in *.
  - eapply (p_sub _ IH); eassumption.
  - destruct k; try discriminate. destruct (negb _); [discriminate|]. andb. repeat minv H.
    apply assert_ok in E0, E2. destruct E0 as [-> ->], E2 as [-> ->].
    destruct (p_sent _ IH _ _ _ _ E E1) as (M1 & V1); try assumption.
    destruct (p_sent _ IH _ _ _ _ E E3) as (M2 & V2); try assumption; [exact (m_good _ _ _ _ M1)|eapply env_same; eassumption|eapply hoa_ext; [exact (m_ext _ _ _ _ M1)|exact Ho]|].
    destruct (conn2 _ _ _ _ _ _ _ _ _ M1 M2 H) as (M & V3). split; [exact M|congruence].
Qed.

Lemma subordinate_spec n s x s' E : subordinate vf (self _ (KStatement [] n)) s = Ok (x, s') -> fo n = true -> good s -> env s E -> hoa_in s E ->
  made s s' E x /\ s_vars s' = s_vars s.
Proof.
  intros H Fo G V Ho. unfold subordinate in H. minv H. injection E0 as <- <-. minv H. injection E0 as <-. minv H.
  destruct (p_stmt _ IH _ _ _ _ _ E E0) as (M & Vs); try assumption; [intros ? ? []|].
  minv H. injection E1 as <- <-. minv H. injection E1 as <- <-. minv H. minv H. injection E2 as <-. minv H. subst.
  assert (Hi := e_hi _ _ _ _ _ _ _ _ (m_ext _ _ _ _ M)). cbn [s_hi] in Hi. rewrite Hi in *. cbn [hd rev] in E1. cbn [bind_his] in E1. minv E1. subst.
  cbn [tl]. split; [|exact Vs]. destruct M as [G' X N S O T F]. split; try assumption. destruct X as [X1 X2 X3 X4]. split; auto.
Qed.

Lemma statement_spec a n s x s' E : do_statement U self a n s = Ok (x, s') -> fo n = true -> good s -> env s E -> hoa_in s E -> args_in s E a ->
  made s s' E x /\ s_vars s' = s_vars s.
Proof.
  intros H Fo G V Ho A. unfold do_statement in H. apply with_vars_inv in H. destruct H as (s1 & H & ->). split; [|reflexivity]. apply with_vs_made; [exact G|].
  destruct n; try discriminate; cbn [first_order] in Fo; andb.
  - destruct n1; try discriminate. minv H. minv H. subst. destruct (p_pren _ IH _ _ _ _ _ _ _ _ E E0) as (M & _); assumption.
  - destruct ts as [ts|].
    + destruct (p_stmt _ IH _ _ _ _ _ E H) as (M & _); try assumption. cbn [first_order]. rewrite H1, H0. reflexivity.
    + unfold predication in H. minv H. destruct (p_pred _ IH _ _ _ _ E E0) as (G1 & X1 & V1 & P1); try assumption.
      destruct (distribute_made E _ _ _ _ _ H G1) as (M & _); [eapply pall_weak; [exact P1|]; intros y; intros K; eapply atom_weak; [exact K|left; assumption]|eapply args_ext; eassumption|].
      eapply made_earlier; eassumption.
  - destruct k; try discriminate. repeat minv H. apply assert_ok in E1, E3. destruct E1 as [-> ->], E3 as [-> ->].
    unfold lift in E0. destruct (connector U ru); try discriminate. injection E0 as <- <-.
    destruct (p_stmt _ IH _ _ _ _ _ E E2) as (M1 & V1); try assumption.
    destruct (p_stmt _ IH _ _ _ _ _ E E4) as (M2 & V2); try assumption; [exact (m_good _ _ _ _ M1)|eapply env_same; eassumption|eapply hoa_ext; [exact (m_ext _ _ _ _ M1)|exact Ho]|eapply args_ext; [exact A|exact G|exact (m_ext _ _ _ _ M1)]|].
    exact (proj1 (conn2 _ _ _ _ _ _ _ _ _ M1 M2 H)).
Qed.

Lemma predicate_spec n s p s' E : do_predicate U ol vf self n s = Ok (p, s') -> fo n = true -> good s -> env s E -> pmade s s' E p.
Proof.
  intros H Fo G V. destruct n; try discriminate; cbn [first_order] in Fo; cbn [do_predicate] in H.
  - (* serial *) andb. repeat minv H. apply assert_ok in E0, E2. destruct E0 as [-> ->], E2 as [-> ->].
    destruct (p_pred _ IH _ _ _ _ E E1) as (G1 & X1 & V1 & P1); try assumption.
    destruct (p_pred _ IH _ _ _ _ E E3) as (G2 & X2 & V2 & P2); try assumption; [eapply env_same; eassumption|].
    destruct (serial_left_made E _ _ _ _ _ H G2) as (G3 & X3 & V3 & P3); [eapply pall_weak; [exact P1|]; intros y K; eapply atom_ext; eassumption|exact P2|].
    split; [exact G3|]. split; [exact (ext_trans _ _ _ G2 (ext_trans _ _ _ G1 X1 X2) X3)|]. split; [congruence|exact P3].
  - (* word *) destruct (is_variable U ol (NWordPredicate w)) as [v|] eqn:Iv.
    + minv H. destruct (lookup_ok _ _ _ _ _ E E0 V) as (Q1 & Q2 & Q3 & Q4 & Q5 & Q6 & D). minv H. minv H. subst.
      assert (G0 : good s0) by (unfold good in *; rewrite Q1, Q2, Q4, Q6; exact G).
      destruct (alloc_leaf _ _ _ _ E E1 G0 eq_refl eq_refl) as (G1 & X & V1 & A & _); [intros ? []|intros ? ? ? K; injection K as <- -> <-; auto|].
      split; [exact G1|]. split; [|split; [congruence|exact A]].
      unfold ext in *. rewrite Q1, Q2, Q3, Q5 in X. exact X.
    + destruct (is_hoa U (NWordPredicate w)); [discriminate|]. minv H. minv H. subst.
      destruct (alloc_leaf _ _ _ _ E E0 G eq_refl eq_refl) as (G1 & X & V1 & A & _); [intros ? []|discriminate|]. unfold pmade; cbn [pall]; auto.
  - (* connection *) destruct k; try discriminate. andb. repeat minv H. apply assert_ok in E1, E3. destruct E1 as [-> ->], E3 as [-> ->].
    unfold lift in E0. destruct (connector U ru); try discriminate. injection E0 as <- <-. subst.
    destruct (p_pred _ IH _ _ _ _ E E2) as (G1 & X1 & V1 & P1); try assumption.
    destruct (p_pred _ IH _ _ _ _ E E4) as (G2 & X2 & V2 & P2); try assumption; [eapply env_same; eassumption|].
    split; [exact G2|]. split; [exact (ext_trans _ _ _ G1 X1 X2)|]. split; [congruence|]. split; [|exact P2].
    eapply pall_weak; [exact P1|]. intros y K; eapply atom_ext; eassumption.
  - destruct k; discriminate.
Qed.

Lemma relative_spec bo n s x s' (E : ref -> Prop) : relative_clause U self bo n s = Ok (x, s') -> fo n = true -> good s -> env s E ->
  match bo with Some b => E b | None => hoa_in s E end -> made s s' E x /\ s_vars s' = s_vars s.
Proof.
  intros H Fo G V Ho. unfold relative_clause in H. apply with_vars_inv in H. destruct H as (s1 & H & ->). split; [|reflexivity]. apply with_vs_made; [exact G|].
  minv H.
  assert (S0 : exists l, s0 = St (s_heap s) (s_n s) (s_the s) (s_hi s) (s_lifted s) l (s_vars s) /\ hoa_in s0 E /\ s_hoa s = match bo with Some _ => tl l | None => l end).
  { destruct bo as [b|].
    - unfold push_hoa in E0. minv E0. injection E1 as <- <-. injection E0 as <-. exists (b :: s_hoa s). split; [reflexivity|]. split; [|reflexivity]. intros d D. injection D as <-. exact Ho.
    - minv E0. subst. exists (s_hoa s0). destruct s0. auto. }
  clear E0. destruct S0 as (l & -> & Ho' & Hl). set (s0 := St (s_heap s) (s_n s) (s_the s) (s_hi s) (s_lifted s) l (s_vars s)) in *.
  assert (G0 : good s0) by exact G. assert (V0 : env s0 E) by exact V. minv H.
  assert (M : made s0 s2 E a).
  { destruct n; try discriminate; cbn [first_order] in Fo.
    - destruct (p_sub _ IH _ _ _ _ E E0) as (M & _); assumption.
    - destruct k; try discriminate. andb. repeat minv E0. apply assert_ok in E2, E4. destruct E2 as [-> ->], E4 as [-> ->].
      unfold lift in E1. destruct (connector U ru); try discriminate. injection E1 as <- <-.
      destruct (p_rel _ IH _ _ _ _ _ E E3) as (M1 & V1); try assumption.
      destruct (p_rel _ IH _ _ _ _ _ E E5) as (M2 & V2); try assumption; [exact (m_good _ _ _ _ M1)|eapply env_same; eassumption|eapply hoa_ext; [exact (m_ext _ _ _ _ M1)|exact Ho']|].
      exact (proj1 (conn2 _ _ _ _ _ _ _ _ _ M1 M2 E0)).
    - destruct k; try discriminate. destruct (p_sub _ IH _ _ _ _ E E0) as (M & _); assumption. }
  clear E0. minv H. apply ret_ok in H. destruct H as [<- ->].
  assert (S3 : s1 = St (s_heap s2) (s_n s2) (s_the s2) (s_hi s2) (s_lifted s2) (s_hoa s) (s_vars s2)).
  { assert (K := e_hoa _ _ _ _ _ _ _ _ (m_ext _ _ _ _ M)). cbn [s_hoa s0] in K. destruct bo.
    - unfold pop_hoa in E0. minv E0. injection E1 as <- <-. injection E0 as <-. rewrite K, Hl. reflexivity.
    - apply ret_ok in E0. destruct E0 as [_ <-]. rewrite Hl, <- K. destruct s2; reflexivity. }
  subst s1. destruct M as [G' X N S O T F]. destruct X as [X1 X2 X3 X4]. split; try assumption. split; auto.
Qed.

Lemma quantifier_hi w : quantifier U (Some w) = Ok QHi -> has_text U w "hi" = true.
Proof. unfold quantifier. repeat match goal with |- context [if ?b then _ else _] => destruct b; try discriminate end. reflexivity. Qed.
Lemma quantifier_the w : quantifier U (Some w) = Ok QThe -> has_text U w "ke" = true.
Proof. unfold quantifier. repeat match goal with |- context [if ?b then _ else _] => destruct b; try discriminate end. reflexivity. Qed.

Lemma var_spec v q rel s bo x s' E : var_argument U self v q rel s = Ok (bo, x, s') ->
  match q with None => true | Some w => negb (has_text U w "ke") end = true -> match rel with None => true | Some n => fo n end = true ->
  good s -> env s E -> argd s s' E bo x.
Proof.
  intros H Fq Fr G V. unfold var_argument in H. destruct q as [w|].
  - minv H. unfold lift in E0. destruct (quantifier U (Some w)) as [q0| |] eqn:Q; try discriminate. injection E0 as <- <-.
    assert (Nq : q0 <> QThe) by (intros ->; apply quantifier_the in Q; rewrite Q in Fq; discriminate).
    minv H. destruct (alloc_binding _ _ _ _ _ _ E E0 G) as (M0 & V0 & N0). clear E0. rename a into b.
    minv H. unfold push_var in E0. minv E0. injection E1 as <- <-. injection E0 as <- <-.
    minv H. injection E0 as <-. set (s2 := with_heap _ _) in *.
    assert (M2 : made s s2 E b).
    { assert (P : made s (put s0 b (CBinding q0 (s_n s0) false None None)) E b) by (eapply put_made; try eassumption; [tauto|intros y []|constructor]).
      destruct P as [G' X N S O T F]. split; try assumption. destruct G' as [W T' L V']. split; try assumption.
      intros v' b' [K|K]; [|apply (V' v' b' K)]. injection K as <- <-. exists q0, (s_n s0), false, None, None. split; [|exact Nq].
      apply set_nth_same. eapply nth_lt, N0. }
    assert (N2 : nth_error (s_heap s2) b = Some (CBinding q0 (s_n s0) false None None)) by (apply set_nth_same; eapply nth_lt, N0).
    assert (V2 : s_vars s2 = (v, b) :: s_vars s) by (cbn; rewrite V0; reflexivity).
    clearbody s2. minv H. destruct (alloc_leaf _ _ _ _ (eq b) E0 (m_good _ _ _ _ M2) eq_refl eq_refl) as (G3 & X3 & V3 & A3 & _); [intros ? []|intros; congruence|].
    assert (M3 := made_later _ _ _ _ _ M2 X3 G3). assert (N3 := ext_nth _ _ _ _ X3 N2). clear E0. rename a into y.
    assert (Fin : made s s' E b /\ (exists r, nth_error (s_heap s') b = Some (CBinding q0 (s_n s0) false r None)) /\ s_vars s' = (v, b) :: s_vars s /\
      atom (s_heap s') (eq b) y /\ bo = Some b /\ x = y).
    { destruct rel as [n|].
      - minv H. minv E0. destruct (p_rel _ IH _ _ _ _ _ (Or E (eq b)) E1) as (M4 & V4); [exact Fr|exact G3| |right; reflexivity|].
        { intros v' b' I. rewrite V3, V2 in I. destruct I as [I|I]; [injection I as <- <-; right; reflexivity|left; eapply V, I]. }
        assert (M3' := made_later _ _ _ _ _ M3 (m_ext _ _ _ _ M4) (m_good _ _ _ _ M4)). assert (N4 := ext_nth _ _ _ _ (m_ext _ _ _ _ M4) N3).
        assert (Nb : a <> b) by (pose proof (m_new _ _ _ _ M4); apply nth_lt in N3; lia).
        destruct (restrict_made _ _ _ _ _ _ _ _ _ _ M3' N4 (made_earlier _ _ _ _ _ G3 (m_ext _ _ _ _ M3) M4) Nb E0) as (M5 & V5 & N5 & A5).
        minv H. injection H as <- <-. subst. split; [exact M5|]. split; [eauto|]. split; [congruence|]. split; [|auto].
        apply A5. eapply atom_ext; [exact A3|exact G3|exact (m_ext _ _ _ _ M4)].
      - minv H. minv E0. subst. minv H. injection H as <- <-. subst. split; [exact M3|]. split; [eauto|]. split; [congruence|auto]. }
    clear H. destruct Fin as (M & (r & N) & Vs & A & -> & ->). split; [exact (m_good _ _ _ _ M)|exact (m_ext _ _ _ _ M)| |].
    + eapply atom_weak; [exact A|]. intros d <-. left. right. reflexivity.
    + split; [exact M|]. split; [eauto|]. right. eauto.
  - minv H. destruct (lookup_ok _ _ _ _ _ E E0 V) as (Q1 & Q2 & Q3 & Q4 & Q5 & Q6 & D). clear E0. minv H.
    assert (G0 : good s0) by (unfold good in *; rewrite Q1, Q2, Q4, Q6; exact G).
    assert (X0 : ext s s0) by (assert (K := ext_refl _ G); unfold ext in *; rewrite Q1, Q2, Q3, Q5; exact K).
    destruct (alloc_leaf _ _ _ _ E E0 G0 eq_refl eq_refl) as (G1 & X1 & V1 & A1 & _); [intros ? []|intros ? ? ? K; injection K as <- -> <-; auto|].
    clear E0. assert (X01 := ext_trans _ _ _ G0 X0 X1). rename a into ax. destruct rel as [rn|].
    + minv H. rename r into b. rename r0 into ay. destruct (new_binding_ok _ _ _ _ _ _ E E0 G1) as (M2 & V2 & (nb & N2) & A2). clear E0.
      assert (G2 := m_good _ _ _ _ M2). assert (X2 := m_ext _ _ _ _ M2).
      minv H. destruct (alloc_leaf _ _ _ _ (fun _ => False) E0 G2 eq_refl eq_refl) as (G3 & X3 & V3 & A3 & _); [intros ? []|discriminate|]. clear E0.
      minv H. destruct (alloc_predication _ _ _ _ _ (Or E (eq b)) E0 G3) as (M4 & V4).
      { eapply atom_weak; [exact A3|intros d []]. }
      { intros y [Y|[Y|[]]]; injection Y as <-.
        - eapply atom_weak; [eapply atom_ext; [exact A2|exact G2|exact X3]|]. intros d <-. left. right. reflexivity.
        - eapply atom_weak; [eapply atom_ext; [eapply atom_ext; [exact A1|exact G1|exact X2]|exact G2|exact X3]|]. intros d K. left. left. exact K. }
      clear E0. assert (G4 := m_good _ _ _ _ M4). assert (X4 := m_ext _ _ _ _ M4). assert (X24 := ext_trans _ _ _ G3 X3 X4).
      minv H. destruct (p_rel _ IH _ _ _ _ _ (Or E (eq b)) E0) as (M5 & V5); [exact Fr|exact G4| |right; reflexivity|].
      { intros v' b' I. left. apply (V v'). rewrite V4, V3, V2, V1, Q6 in I. exact I. }
      clear E0. assert (X45 := m_ext _ _ _ _ M5). assert (G5 := m_good _ _ _ _ M5). assert (X25 := ext_trans _ _ _ G4 X24 X45).
      minv H. destruct (conn2 _ _ _ _ _ _ _ _ _ M4 M5 E0) as (M6 & V6). clear E0. assert (G6 := m_good _ _ _ _ M6). assert (X26 := ext_trans _ _ _ G3 X3 (m_ext _ _ _ _ M6)).
      minv H. assert (M2' := made_later _ _ _ _ _ M2 X26 G6). assert (N6 := ext_nth _ _ _ _ X26 N2).
      assert (M6' : made s1 s6 (Or E (eq b)) a2) by (eapply made_earlier; [exact G3|exact (ext_trans _ _ _ G2 X2 X3)|exact M6]).
      assert (Nb : a2 <> b) by (pose proof (m_new _ _ _ _ M6); pose proof (ext_len _ _ X3); apply nth_lt in N2; lia).
      destruct (restrict_made _ _ _ _ _ _ _ _ _ _ M2' N6 M6' Nb E0) as (M7 & V7 & N7 & A7).
      minv H. injection H as <- <-. subst. assert (M := made_earlier _ _ _ _ _ G1 X01 M7). split; [exact (m_good _ _ _ _ M)|exact (m_ext _ _ _ _ M)| |].
      * eapply atom_weak; [apply A7; eapply atom_ext; [exact A2|exact G2|exact X26]|]. intros d <-. left. right. reflexivity.
      * split; [exact M|]. split; [eauto|]. left. congruence.
    + minv H. injection H as <- <-. subst. split; [exact G1|exact X01| |congruence]. eapply atom_weak; [exact A1|]. intros d K. left. left. exact K.
Qed.

Lemma hoa_spec q rel s bo x s' E : hoa_argument self q rel s = Ok (bo, x, s') -> match rel with None => true | Some n => fo n end = true ->
  good s -> env s E -> hoa_in s E -> argd s s' E bo x.
Proof.
  intros H Fr G V Ho. unfold hoa_argument in H. minv H. injection E0 as <- <-. destruct (s_hoa s) as [|def l] eqn:Hs.
  - minv H. injection E0 as <- <-. minv H. minv H. injection H as <- <-. subst.
    destruct (alloc_leaf _ _ _ _ E E0 G eq_refl eq_refl) as (G1 & X1 & V1 & A1 & _); [intros ? []|intros; discriminate|].
    split; [exact G1|exact X1| |exact V1]. eapply atom_weak; [exact A1|]. intros d K. left. left. exact K.
  - minv H. apply get_binding_ok in E0. destruct E0 as [-> _]. minv H.
    assert (Ed : E def) by (apply Ho; rewrite Hs; reflexivity).
    destruct (alloc_leaf _ _ _ _ E E0 G eq_refl eq_refl) as (G1 & X1 & V1 & A1 & _); [intros ? []|intros ? ? ? K; injection K as <- <- <-; exact Ed|].
    clear E0. rename a0 into ax. rename s0 into s1.
    assert (Plain : bo = None -> s' = s1 -> x = ax -> argd s s' E bo x).
    { intros -> -> ->. split; [exact G1|exact X1| |exact V1]. eapply atom_weak; [exact A1|]. intros d K. left. left. exact K. }
    destruct q as [w|], rel as [rn|]; try (minv H; injection H as <- <-; auto; fail); clear Plain;
    (minv H; rename r into b; rename r0 into ay; destruct (new_binding_ok _ _ _ _ _ _ E E0 G1) as (M2 & V2 & (nb & N2) & A2); clear E0;
     assert (G2 := m_good _ _ _ _ M2); assert (X2 := m_ext _ _ _ _ M2);
     minv H; destruct (alloc_leaf _ _ _ _ (fun _ => False) E0 G2 eq_refl eq_refl) as (G3 & X3 & V3 & A3 & _); [intros ? []|discriminate|]; clear E0;
     minv H; destruct (alloc_predication _ _ _ _ _ (Or E (eq b)) E0 G3) as (M4 & V4);
     [eapply atom_weak; [exact A3|intros d []]
     |intros y [Y|[Y|[]]]; injection Y as <-;
       [eapply atom_weak; [eapply atom_ext; [exact A2|exact G2|exact X3]|]; intros d <-; left; right; reflexivity
       |eapply atom_weak; [eapply atom_ext; [eapply atom_ext; [exact A1|exact G1|exact X2]|exact G2|exact X3]|]; intros d K; left; left; exact K]
     |]; clear E0; assert (G4 := m_good _ _ _ _ M4); assert (X4 := m_ext _ _ _ _ M4); assert (X24 := ext_trans _ _ _ G3 X3 X4);
     assert (M2' := made_later _ _ _ _ _ M2 X24 G4); assert (N4 := ext_nth _ _ _ _ X24 N2);
     assert (M4' : made s1 s3 (Or E (eq b)) a1) by (eapply made_earlier; [exact G3|exact (ext_trans _ _ _ G2 X2 X3)|exact M4]);
     assert (Nb : a1 <> b) by (pose proof (m_new _ _ _ _ M4); pose proof (ext_len _ _ X3); apply nth_lt in N2; lia);
     minv H; destruct (restrict_made _ _ _ _ _ _ _ _ _ _ M2' N4 M4' Nb E0) as (M5 & V5 & N5 & A5); clear E0;
     assert (A5' := A5 _ _ (atom_ext _ _ _ _ A2 G2 X24)); clear A5 Nb M4' M2' N4 X24 X4 G4 M4).
    all: try (minv H; minv E0; subst; minv H; injection H as <- <-; subst; assert (M := made_earlier _ _ _ _ _ G1 X1 M5);
      split; [exact (m_good _ _ _ _ M)|exact (m_ext _ _ _ _ M)|eapply atom_weak; [exact A5'|]; intros d <-; left; right; reflexivity|];
      split; [exact M|]; split; [eauto|left; congruence]; fail).
    all: minv H; minv E0; (destruct (p_rel _ IH _ _ _ _ _ (Or E (eq b)) E1) as (M6 & V6); [exact Fr|exact (m_good _ _ _ _ M5)| |right; reflexivity|]);
      [intros v' b' I; left; apply (V v'); rewrite V5, V4, V3, V2, V1 in I; exact I|].
    all: clear E1; minv E0.
    all: assert (M5' := made_later _ _ _ _ _ M5 (m_ext _ _ _ _ M6) (m_good _ _ _ _ M6)); assert (N6 := ext_nth _ _ _ _ (m_ext _ _ _ _ M6) N5).
    all: assert (M6' := made_earlier _ _ _ _ _ (m_good _ _ _ _ M5) (m_ext _ _ _ _ M5) M6).
    all: assert (Nb : a2 <> b) by (pose proof (m_new _ _ _ _ M6); apply nth_lt in N5; lia).
    all: destruct (and_made _ _ _ _ _ _ _ _ _ _ _ _ _ _ M5' N6 M6' Nb E1 E0) as (M7 & V7 & N7 & _ & A7).
    all: minv H; injection H as <- <-; subst; assert (M := made_earlier _ _ _ _ _ G1 X1 M7).
    all: split; [exact (m_good _ _ _ _ M)|exact (m_ext _ _ _ _ M)| |split; [exact M|]; split; [eauto|left; congruence]].
    all: eapply atom_weak; [apply A7; eapply atom_ext; [exact A5'|exact (m_good _ _ _ _ M5)|exact (m_ext _ _ _ _ M6)]|]; intros d <-; left; right; reflexivity.
Qed.

Lemma the_snoc h l b n f rs : the_ok h l -> ~ In b l -> orphan h b -> nth_error h b = Some (CBinding QThe n f (Some rs) None) ->
  (forall d, free h rs d -> d = b \/ In d l) -> the_ok h (l ++ [b]).
Proof.
  intros T N O B F pre c post E. destruct (rev post) as [|z w] eqn:R.
  - apply (f_equal (@rev _)) in R. rewrite rev_involutive in R. subst post. apply app_inj_tail in E. destruct E as [<- <-].
    split; [exact N|]. split; [exact O|]. eauto 6.
  - apply (f_equal (@rev _)) in R. rewrite rev_involutive in R. cbn in R. subst post.
    rewrite app_comm_cons, app_assoc in E. apply app_inj_tail in E. destruct E as [E <-]. exact (T _ _ _ E).
Qed.

Lemma argument_spec f q p rel s bo x s' E : predicate_argument U ol vf self f q p rel s = Ok (bo, x, s') -> fo (NPredArg f q p rel) = true ->
  good s -> env s E -> hoa_in s E -> argd s s' E bo x.
Proof.
  intros H Fo G V Ho. cbn [first_order] in Fo. apply andb_prop in Fo. destruct Fo as [Fp Fr]. unfold predicate_argument in H.
  minv H. injection E0 as <- <-. destruct (find _ (s_lifted s)) as [[k b]|] eqn:Fi.
  - minv H. apply get_binding_ok in E0. destruct E0 as [-> _]. minv H. minv H. injection H as <- <-. subst.
    assert (Ib : In b (s_the s)) by (apply find_some in Fi; eapply (g_li _ _ _ _ G), (proj1 Fi)).
    destruct (alloc_leaf _ _ _ _ (eq b) E0 G eq_refl eq_refl) as (G1 & X1 & V1 & A1 & _); [intros ? []|intros ? ? ? K; injection K as <- <- <-; reflexivity|].
    split; [exact G1|exact X1| |exact V1]. eapply atom_weak; [exact A1|]. intros d <-. right. eapply ext_the; eassumption.
  - clear Fi. destruct (is_variable U ol p) as [v|]; [eapply var_spec; eassumption|]. destruct (is_hoa U p); [eapply hoa_spec; eassumption|].
    andb. rename H0 into Fq. rename H1 into Fp. minv H. unfold lift in E0. destruct (quantifier U q) as [qq| |] eqn:Q; try discriminate. injection E0 as <- <-.
    assert (Nh : qq <> QHi).
    { intros ->. destruct q as [w|]; [|discriminate]. apply quantifier_hi in Q. rewrite Q in Fq. discriminate. }
    set (V0 := fun d => exists v, In (v, d) (s_vars s)).
    minv H. rename r into b. rename r0 into a. destruct (new_binding_ok _ _ _ _ _ _ V0 E0 G) as (M1 & V1 & (nb & N1) & A1). clear E0. rename s0 into s1.
    assert (G1 := m_good _ _ _ _ M1). assert (X1 := m_ext _ _ _ _ M1).
    minv H. unfold make_predication, predication in E0. minv E0.
    destruct (p_pred _ IH _ _ _ _ V0 E1) as (G2 & X2 & V2 & P2); [exact Fp|exact G1|intros v d I; rewrite V1 in I; exists v; exact I|]. clear E1.
    assert (A2 := atom_ext _ _ _ _ A1 G1 X2).
    destruct (distribute_made (Or V0 (eq b)) _ _ _ _ _ E0 G2) as (M3 & V3).
    { eapply pall_weak; [exact P2|]. intros y K. eapply atom_weak; [exact K|]. intros d D. left. left. exact D. }
    { intros y n [Y|[]]. injection Y as <- <-. eapply atom_weak; [exact A2|]. intros d <-. left. right. reflexivity. }
    clear E0 P2. rename a0 into r1. rename s0 into s3.
    assert (G3 := m_good _ _ _ _ M3). assert (X13 := ext_trans _ _ _ G2 X2 (m_ext _ _ _ _ M3)).
    assert (M1' := made_later _ _ _ _ _ M1 X13 G3). assert (N3 := ext_nth _ _ _ _ X13 N1).
    assert (M3' : made s s3 (Or V0 (eq b)) r1) by (eapply made_earlier; [exact G2|exact (ext_trans _ _ _ G1 X1 X2)|exact M3]).
    assert (Nb : r1 <> b) by (pose proof (m_new _ _ _ _ M3); pose proof (ext_len _ _ X2); apply nth_lt in N1; lia).
    minv H. destruct (restrict_made _ _ _ _ _ _ _ _ _ _ M1' N3 M3' Nb E0) as (M4 & V4 & N4 & A4). clear E0.
    assert (A4' := A4 _ _ (atom_ext _ _ _ _ A2 G2 (m_ext _ _ _ _ M3))). clear A4 A2 Nb M3' M1' N3 M3 X2 G2.
    minv H. rename s4 into s5.
    assert (Fin : made s s5 V0 b /\ (exists rs, nth_error (s_heap s5) b = Some (CBinding qq nb false (Some rs) None)) /\ s_vars s5 = s_vars s /\ atom (s_heap s5) (eq b) a).
    { destruct rel as [rn|].
      - minv E0. destruct (p_rel _ IH _ _ _ _ _ (Or V0 (eq b)) E1) as (M6 & V6); [exact Fr|exact (m_good _ _ _ _ M4)| |right; reflexivity|].
        { intros v d I. rewrite V4, V3, V2, V1 in I. left. exists v. exact I. }
        clear E1. minv E0.
        assert (M4' := made_later _ _ _ _ _ M4 (m_ext _ _ _ _ M6) (m_good _ _ _ _ M6)). assert (N6 := ext_nth _ _ _ _ (m_ext _ _ _ _ M6) N4).
        assert (M6' := made_earlier _ _ _ _ _ (m_good _ _ _ _ M4) (m_ext _ _ _ _ M4) M6).
        assert (Nb : a0 <> b) by (pose proof (m_new _ _ _ _ M6); apply nth_lt in N4; lia).
        destruct (and_made _ _ _ _ _ _ _ _ _ _ _ _ _ _ M4' N6 M6' Nb E1 E0) as (M7 & V7 & N7 & _ & A7).
        split; [exact M7|]. split; [eauto|]. split; [congruence|]. apply A7. eapply atom_ext; [exact A4'|exact (m_good _ _ _ _ M4)|exact (m_ext _ _ _ _ M6)].
      - minv E0. subst. split; [exact M4|]. split; [eauto|]. split; [congruence|exact A4']. }
    clear E0 M4 V4 N4 A4' M1 V1 N1 A1 G1 X1 G3 X13 V2 V3. destruct Fin as (M & (rs & N) & Vs & A).
    assert (Some_b : bo = Some b -> x = a -> s' = s5 -> argd s s' E bo x).
    { intros -> -> ->. split; [exact (m_good _ _ _ _ M)|exact (m_ext _ _ _ _ M)|eapply atom_weak; [exact A|]; intros d <-; left; right; reflexivity|].
      split; [|split; [eauto|left; exact Vs]]. eapply made_weak; [exact M|]. intros d (v & I). left. eapply V, I. }
    destruct qq; try contradiction; try (minv H; injection H as <- <-; auto; fail). clear Some_b.
    minv H. destruct a0.
    + unfold has_free_vars in E0. destruct (visited (s_heap s5) vf b); cbn [bind] in E0; try discriminate. destruct (free_scan _ _ _ _); cbn [bind] in E0; try discriminate.
      injection E0 as -> <-. minv H. minv H. injection H as <- <-. subst.
      assert (Nq : QAll <> QThe) by discriminate.
      destruct (quantifier_made _ _ _ _ _ _ _ _ _ _ _ M N Nq E0) as (M6 & V6 & _ & N6 & A6).
      split; [exact (m_good _ _ _ _ M6)|exact (m_ext _ _ _ _ M6)|eapply atom_weak; [apply A6, A|]; intros d <-; left; right; reflexivity|].
      split; [|split; [eauto|left; congruence]]. eapply made_weak; [exact M6|]. intros d (v & I). left. eapply V, I.
    + destruct (no_free _ _ _ _ _ _ E0 M) as (-> & Fv).
      { intros d (v & I). destruct (g_vars _ _ _ _ G _ _ I) as (q1 & n1 & f1 & r1' & c1 & N1 & Q1). split; [eapply nth_lt, N1|].
        exists q1, n1, f1, r1', c1. split; [eapply ext_nth; [exact (m_ext _ _ _ _ M)|exact N1]|exact Q1]. }
      clear E0. minv H. injection E0 as <-. minv H. injection E0 as <-. minv H. injection H as <- <-. subst.
      destruct M as [Gm Xm Nm Sm Om Tm Fm]. destruct Gm as [W T L V5]. destruct Xm as [X1 (t & X2 & X2') X3 X4]. split.
      * split; cbn [s_heap s_the s_lifted s_vars]; [exact W| | |exact V5].
        -- eapply the_snoc; [exact T|exact Tm|exact Om|exact N|]. intros d D. destruct (Nat.eq_dec d b) as [->|Nd]; [left; reflexivity|right].
           apply Fv. econstructor 2; [exact N|left; reflexivity|exact D|]. intros _. exact Nd.
        -- intros k b' [K|K]; apply in_or_app; [injection K as <- <-; right; left; reflexivity|left; eapply L, K].
      * split; cbn [s_heap s_the s_hoa s_hi]; auto. exists (t ++ [b]). rewrite X2, app_assoc. split; [reflexivity|].
        intros y Y. apply in_app_or in Y. destruct Y as [Y|[<-|[]]]; [apply X2', Y|exact Nm].
      * eapply atom_weak; [exact A|]. intros d <-. right. cbn [s_the]. apply in_or_app. right. left. reflexivity.
      * exact Vs.
Qed.

(** What follows an argument in prenexStatement. *)
Lemma focus_arg s s1 E bo x f bi u s2 :
  (match bo with Some b => if negb (is_none (A := word) f) && negb (has_text U bi "pa") then set_focus b else ret tt | None => ret tt end) s1 = Ok (u, s2) ->
  argd s s1 E bo x -> argd s s2 E bo x.
Proof.
  intros H A. destruct bo as [b|]; [|minv H; subst; exact A]. destruct (negb _ && negb _)%bool; [|minv H; subst; exact A].
  destruct A as [G X At (M & (q & n & f1 & r & N) & V)]. destruct (focus_made _ _ _ _ _ _ _ _ _ _ M N H) as (M2 & V2 & T2 & N2 & A2).
  split; [exact (m_good _ _ _ _ M2)|exact (m_ext _ _ _ _ M2)| |].
  - unfold The. rewrite T2. apply A2. exact At.
  - split; [exact M2|]. split; [eauto 6|]. rewrite V2. exact V.
Qed.

Lemma rest_spec s s1 E bo x a p n bi rest y ts' s2 z s3 : argd s s1 E bo x -> good s -> env s E -> hoa_in s E -> args_in s E a ->
  fo n = true -> forallb fo rest = true -> self _ (KPrenex (a ++ [(x, p)]) n bi rest) s1 = Ok (y, ts', s2) ->
  bind_scope vf bo y s2 = Ok (z, s3) -> made s s3 E z /\ forallb fo ts' = true.
Proof.
  intros A G V Ho Ar Fn Fr H B. destruct A as [G1 X1 At Bo]. set (E' := Or E (fun d => bo = Some d)) in *.
  destruct (p_pren _ IH _ _ _ _ _ _ _ _ E' H) as (M & Vs & Ft); [exact Fn|exact Fr|exact G1| | | |].
  - intros v b I. destruct bo as [b0|].
    + destruct Bo as (_ & _ & [K|(v0 & K)]); rewrite K in I; [left; eapply V, I|]. destruct I as [I|I]; [injection I as <- <-; right; reflexivity|left; eapply V, I].
    + rewrite Bo in I. left. eapply V, I.
  - eapply hoa_ext; [exact X1|]. intros d D. left. apply Ho, D.
  - intros w k I. apply in_app_or in I. destruct I as [I|[I|[]]].
    + eapply args_ext; [|exact G|exact X1|exact I]. eapply args_weak; [exact Ar|]. intros d D. left. exact D.
    + injection I as <- <-. exact At.
  - split; [|exact Ft]. destruct bo as [b|].
    + destruct Bo as (Mb & (q & nn & f & r & N) & _). assert (X2 := m_ext _ _ _ _ M). assert (N2 := ext_nth _ _ _ _ X2 N).
      assert (Mb2 := made_later _ _ _ _ _ Mb X2 (m_good _ _ _ _ M)).
      assert (My : made s s2 (Or E (eq b)) y).
      { eapply made_weak; [eapply made_earlier; [exact G1|exact X1|exact M]|]. intros d [D|D]; [left; left; exact D|left; right; congruence]. }
      assert (Ny : y <> b) by (pose proof (m_new _ _ _ _ M); apply nth_lt in N; lia).
      exact (proj1 (scope_made _ _ _ _ _ _ _ _ _ _ _ _ Mb2 N2 My Ny B)).
    + cbn [bind_scope] in B. minv B. subst. eapply made_weak; [eapply made_earlier; [exact G1|exact X1|exact M]|]. intros d [D|D]; [left; exact D|discriminate].
Qed.

Lemma prenex_spec a n bi ts s x ts' s' E : prenex_statement U vf self a n bi ts s = Ok (x, ts', s') -> fo n = true -> forallb fo ts = true ->
  good s -> env s E -> hoa_in s E -> args_in s E a -> made s s' E x /\ s_vars s' = s_vars s /\ forallb fo ts' = true.
Proof.
  intros H Fn Ft G V Ho A. unfold prenex_statement in H. apply with_vars_inv in H. destruct H as (s1 & H & ->).
  cut (made s s1 E x /\ forallb fo ts' = true). { intros [M F]. split; [apply with_vs_made; assumption|]. split; [reflexivity|exact F]. }
  destruct ts as [|t rest].
  { minv H. minv H. injection H as <- <-. subst. split; [|reflexivity].
    destruct (p_stmt _ IH _ _ _ _ _ E E0) as (M & _); try assumption. destruct (has_text U bi "pa"); [exact A|intros ? ? []]. }
  cbn [forallb] in Ft. apply andb_prop in Ft. destruct Ft as [Ft Fr].
  (* two readings connected *)
  assert (Two : forall c tl tr y ts1 s2 z ts2 s3 w s4, forallb fo tl = true ->
    self _ (KPrenex a n bi tl) s = Ok (y, ts1, s2) -> (forallb fo ts1 = true -> forallb fo tr = true) -> self _ (KPrenex a n bi tr) s2 = Ok (z, ts2, s3) ->
    alloc (CConnection c y z) s3 = Ok (w, s4) -> made s s4 E w /\ forallb fo ts2 = true).
  { intros c tl tr y ts1 s2 z ts2 s3 w s4 Fl H1 Fr' H2 H3.
    destruct (p_pren _ IH _ _ _ _ _ _ _ _ E H1) as (M1 & V1 & F1); try assumption.
    destruct (p_pren _ IH _ _ _ _ _ _ _ _ E H2) as (M2 & V2 & F2); [exact Fn|auto|exact (m_good _ _ _ _ M1)|eapply env_same; eassumption|eapply hoa_ext; [exact (m_ext _ _ _ _ M1)|exact Ho]|eapply args_ext; [exact A|exact G|exact (m_ext _ _ _ _ M1)]|].
    destruct (conn2 _ _ _ _ _ _ _ _ _ M1 M2 H3) as (M & _). auto. }
  assert (Tl : forall l, forallb fo l = true -> forallb fo (tl l) = true) by (intros [|? ?]; cbn; [auto|]; intros K; apply andb_prop in K; apply K).
  destruct t; try discriminate.
  - (* linked *) cbn [first_order] in Ft. unfold argument_case in H. destruct t; try discriminate.
    + minv H. assert (D := p_arg _ IH _ _ _ _ _ _ _ _ _ E0 Ft G V Ho). minv H. unfold lift in E1. destruct (go_pos U go) as [pos| |]; try discriminate. injection E1 as <- <-.
      minv H. minv H. minv H. injection H as <- <-. subst. destruct (rest_spec _ _ _ _ _ _ _ _ _ _ _ _ _ _ _ D G V Ho A Fn Fr E1 E2) as (M & F). split; [exact M|].
      cbn [forallb first_order] in *. rewrite Ft, F. reflexivity.
    + destruct k; try discriminate. cbn [first_order] in Ft. andb. destruct (has_text U ru "roi"); [discriminate|].
      repeat minv H. injection H as <- <-. subst. apply assert_ok in E0, E1. destruct E0 as [-> ->], E1 as [-> ->].
      unfold lift in E2. destruct (connector U ru); try discriminate. injection E2 as <- <-.
      eapply Two; [| exact E3 | | exact E4 | exact E5].
      * cbn [forallb first_order]. rewrite H2, Fr. reflexivity.
      * intros K. cbn [forallb first_order]. rewrite H1, Tl by exact K. reflexivity.
  - (* argument *) minv H. assert (D := p_arg _ IH _ _ _ _ _ _ _ _ _ E0 Ft G V Ho). minv H. apply focus_arg with (s := s) (E := E) (x := r) in E1; [|exact D].
    minv H. minv H. minv H. injection H as <- <-. subst. destruct (rest_spec _ _ _ _ _ _ _ _ _ _ _ _ _ _ _ E1 G V Ho A Fn Fr E2 E3) as (M & F). split; [exact M|].
    cbn [forallb]. rewrite Ft, F. reflexivity.
  - destruct k; try discriminate.
    + (* term set *) destruct t1; try discriminate. destruct t2; try discriminate. cbn [first_order] in Ft. andb.
      repeat minv H. injection H as <- <-. subst. unfold lift in E0. destruct (connector U ru); try discriminate. injection E0 as <- <-.
      assert (K1 : forallb fo (prepend rest ts) = true) by (unfold prepend; rewrite forallb_app, H2, Fr; reflexivity).
      assert (K2 : forallb fo l = true -> forallb fo (prepend rest ts0) = true) by (intros _; unfold prepend; rewrite forallb_app, H1, Fr; reflexivity).
      destruct (Two _ _ _ _ _ _ _ _ _ _ _ K1 E1 K2 E2 E3) as (M & F).
      split; [exact M|]. cbn [forallb first_order]. rewrite H2, H1, Fr. reflexivity.
    + (* argument *) cbn [first_order] in Ft. andb. destruct (has_text U ru "roi"); [discriminate|].
      repeat minv H. injection H as <- <-. subst. apply assert_ok in E0, E1. destruct E0 as [-> ->], E1 as [-> ->].
      unfold lift in E2. destruct (connector U ru); try discriminate. injection E2 as <- <-.
      eapply Two; [| exact E3 | | exact E4 | exact E5].
      * cbn [forallb]. rewrite H2, Fr. reflexivity.
      * intros K. cbn [forallb]. rewrite H1, Tl by exact K. reflexivity.
Qed.
End Step.

Theorem run_specs : forall fuel, specs (run U ol vf fuel).
Proof.
  induction fuel as [|f IH]; [split; intros; discriminate|]. split; cbn [run body].
  - apply sentence_spec, IH.
  - apply subordinate_spec, IH.
  - apply statement_spec, IH.
  - apply prenex_spec, IH.
  - apply predicate_spec, IH.
  - apply argument_spec, IH.
  - apply relative_spec, IH.
Qed.

(** ** A discourse *)

Definition Nothing : ref -> Prop := fun _ => False.
Lemma good0 : good st0.
Proof.
  split.
  - split.
    + intros [|i] c x E; discriminate.
    + intros i j x (c & E & _); destruct i; discriminate.
    + intros [|i] c E; discriminate.
    + intros [|i] c E; discriminate.
    + exists (fun _ => 0). intros i x (c & E & _); destruct i; discriminate.
  - intros [|? ?] b post E; discriminate.
  - intros k b [].
  - intros v b [].
Qed.

Definition fo_items (d : list node) : Prop := forall n, In n d -> sentence_item n -> fo n = true.

Lemma items_made fuel : forall d o s r s', all_items U ol vf fuel d o s = Ok (Some r, s') -> fo_items d ->
  good s -> ext st0 s -> s_vars s = [] -> (forall x, o = Some x -> made st0 s Nothing x) -> made st0 s' Nothing r.
Proof.
  induction d as [|n d IHd]; intros o s r s' H Fo G X V M; cbn [all_items] in H.
  - minv H. subst. auto.
  - assert (Fo' : fo_items d) by (intros m I; apply Fo; right; exact I).
    destruct (is_fragment n) eqn:Fn; [eapply IHd; eassumption|]. destruct (is_sentence n) eqn:Sn; [|discriminate].
    assert (Fn' : fo n = true).
    { apply Fo; [left; reflexivity|]. destruct n; try discriminate Sn; [left; eauto|]. destruct k; try discriminate Sn. right. eauto 6. }
    minv H. destruct (p_sent _ (run_specs fuel) _ _ _ _ Nothing E) as (Mx & Vx); [exact Fn'|exact G|rewrite ?V; intros v b I; rewrite V in I; destruct I| |].
    { intros b D. assert (K := e_hoa _ _ _ _ _ _ _ _ X). cbn in K. rewrite K in D. discriminate. }
    assert (G1 := m_good _ _ _ _ Mx). assert (X1 := m_ext _ _ _ _ Mx). destruct o as [x0|].
    + minv H. specialize (M _ eq_refl). destruct (conn2 _ _ _ _ _ _ _ _ _ M Mx E0) as (Mz & Vz).
      eapply IHd; [exact H|exact Fo'|exact (m_good _ _ _ _ Mz)|exact (m_ext _ _ _ _ Mz)|congruence|]. intros z Z. injection Z as <-. exact Mz.
    + eapply IHd; [exact H|exact Fo'|exact G1|exact (ext_trans _ _ _ G X X1)|congruence|]. intros z Z. injection Z as <-. exact (made_earlier _ _ _ _ _ G X Mx).
Qed.

(** The tree at [r] in [h], with the bindings of [l] still to be put around it. *)
Record fin (h : heap) (l : list ref) (r : ref) : Prop := Fin {
  n_wf : wf h;
  n_the : the_ok h l;
  n_stmt : stmt h r;
  n_orphan : orphan h r;
  n_not : ~ In r l;
  n_free : forall d, free h r d -> In d l }.

Lemma bind_one_fin l b r s z s' : bind_scope vf (Some b) r s = Ok (z, s') -> fin (s_heap s) (l ++ [b]) r ->
  z = b /\ fin (s_heap s') l b.
Proof.
  intros E [W T S O N F]. destruct (T l b [] eq_refl) as (Nb & Ob & n & f & rs & B & Fb).
  assert (Nr : r <> b) by (intros ->; apply N, in_or_app; right; left; reflexivity).
  unfold bind_scope in E. destruct vf as [|vf'] eqn:Ev; [discriminate|]. cbn [bind_scope_fuel] in E. minv E. apply get_binding_ok in E0. destruct E0 as [-> B0].
  rewrite B in B0. injection B0 as Hq Hn Hf Hr Hs. rewrite <- Hs in E. minv E. minv E. subst z s0.
  apply set_scope_ok in E0. destruct E0 as (q1 & n1 & f1 & r1 & c1 & B1 & ->). rewrite B in B1. injection B1 as <- <- <- <- <-.
  split; [reflexivity|]. cbn [put s_heap with_heap]. assert (L := nth_lt _ _ _ B).
  assert (Fr : forall x d, x <> b -> free (set_nth b (CBinding QThe n f (Some rs) (Some r)) (s_heap s)) x d -> free (s_heap s) x d) by (intros; eapply free_set; eassumption).
  assert (Crs : child (s_heap s) b rs) by (eexists; split; [exact B|left; reflexivity]).
  assert (Nrs : rs <> b) by (intros ->; exact (Ob _ Crs)).
  split.
  + eapply wf_set; [exact W|exact B|exact Ob|intros [K|[K|[]]]; congruence|reflexivity|reflexivity| |repeat constructor; [intros [->|[]]; exact (O _ Crs)|intros []]]. intros x [<-|[<-|[]]]; [left; left; reflexivity|right; auto].
  + intros pre x post E. assert (I : In x l) by (rewrite E; apply in_elt).
    destruct (T pre x (post ++ [b])) as (Nx & Ox & n1 & f1 & r1 & X & Fx); [rewrite E, <- app_assoc; reflexivity|].
    assert (Nxb : x <> b) by (intros ->; auto). split; [exact Nx|]. split.
    * apply orphan_set; [exact L|exact Ox|]. intros [K|[K|[]]]; subst; [exact (Ox _ Crs)|]. apply N, in_or_app. left. exact I.
    * exists n1, f1, r1. rewrite set_nth_other by auto. split; [exact X|]. intros d D. apply Fx. apply Fr in D; [exact D|]. intros ->. apply (Ob x). eexists. split; [exact X|left; reflexivity].
  + eexists. split; [apply set_nth_same, L|reflexivity].
  + apply orphan_set; [exact L|exact Ob|]. intros [K|[K|[]]]; congruence.
  + exact Nb.
  + intros d D. eapply free_below in D; [|apply set_nth_same, L]. destruct D as [(? & ? & D)|(x & I & D & Nd)]; [discriminate|]. specialize (Nd eq_refl).
    apply Fr in D; [|destruct I as [<-|[<-|[]]]; assumption]. destruct I as [<-|[<-|[]]].
    * destruct (Fb _ D); [congruence|assumption].
    * apply F in D. apply in_app_or in D. destruct D as [D|[D|[]]]; [exact D|congruence].
Qed.

Lemma bind_all_fin : forall l r s o s', bind_all vf (rev l) (Some r) s = Ok (o, s') -> fin (s_heap s) l r ->
  exists r', o = Some r' /\ fin (s_heap s') [] r'.
Proof.
  intros l. induction l as [|b l IHl] using rev_ind; intros r s o s' H K.
  - cbn in H. minv H. subst. exists r. auto.
  - rewrite rev_unit in H. cbn [bind_all] in H. minv H. destruct (bind_one_fin _ _ _ _ _ _ E K) as (-> & K'). eapply IHl; eassumption.
Qed.

Theorem discourse_closed fuel d r s : discourse U ol vf fuel d st0 = Ok (Some r, s) -> fo_items d -> fin (s_heap s) [] r.
Proof.
  unfold discourse. intros H Fo. minv H. minv H. injection E0 as <- <-. destruct a as [r0|].
  - assert (M := items_made _ _ _ _ _ _ E Fo good0 (ext_refl _ good0) eq_refl ltac:(discriminate)).
    apply bind_all_fin in H.
    + destruct H as (r' & K & F). injection K as ->. exact F.
    + destruct M as [[W T _ _] X N S O Nt F]. split; try assumption. intros b D. destruct (F _ D) as [[]|K]. exact K.
  - destruct (items_none _ _ _ _ _ _ _ _ E) as (_ & -> & _). cbn in H. minv H. discriminate.
Qed.
End Run.
