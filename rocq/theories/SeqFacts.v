(** sequenceVarNums, and when a printed formula ends with a period. *)

From Coq Require Import String NArith List Bool Arith Lia Permutation.
From Verif Require Import Base Ast Logic LogicWords LogicSpec Interp Simplify LogicString OrderFacts NameFacts.
Import ListNotations.
Open Scope string_scope.
Open Scope list_scope.
Open Scope nat_scope.

Definition bare (h : heap) : heap := map unnumbered h.

Lemma set_nth_oob {A} n (x : A) l : length l <= n -> set_nth n x l = l.
Proof. revert n; induction l; intros [|n]; cbn; intros; try lia; auto. f_equal. apply IHl. lia. Qed.
Lemma map_set_nth {A B} (f : A -> B) n x l : map f (set_nth n x l) = set_nth n (f x) (map f l).
Proof. revert n; induction l; intros [|n]; cbn; auto. now rewrite IHl. Qed.
Lemma set_nth_id {A} n (x : A) l : nth_error l n = Some x -> set_nth n x l = l.
Proof. revert n; induction l; intros [|n]; cbn; intros; try discriminate; [congruence|]. f_equal. auto. Qed.

Lemma bare_set h r c c' : nth_error h r = Some c -> unnumbered c = unnumbered c' -> bare (set_nth r c' h) = bare h.
Proof.
  intros H E. unfold bare. rewrite map_set_nth. apply set_nth_id. rewrite nth_error_map, H. cbn. now rewrite E.
Qed.

Lemma renumber_bare : forall l i h h', renumber l i h = Ok h' -> bare h' = bare h.
Proof.
  induction l as [|r l IH]; intros i h h' E; cbn in E; [congruence|].
  destruct (nth_error h r) as [[]|] eqn:H; try (eapply IH; eassumption).
  - rewrite (IH _ _ _ E). eapply bare_set; [exact H|reflexivity].
  - destruct def as [d|].
    + destruct (nth_error h d) as [[]|]; try discriminate. rewrite (IH _ _ _ E). eapply bare_set; [exact H|reflexivity].
    + rewrite (IH _ _ _ E). eapply bare_set; [exact H|reflexivity].
Qed.

Lemma bare_introduces h h' r : bare h = bare h' -> introduces h r = introduces h' r.
Proof.
  intros E. assert (X : nth_error (bare h) r = nth_error (bare h') r) by congruence. unfold bare in X. rewrite !nth_error_map in X.
  unfold introduces. destruct (nth_error h r) as [[]|], (nth_error h' r) as [[]|]; cbn in X; congruence || (injection X; intros; subst; reflexivity).
Qed.
Lemma bare_refers h h' r d : bare h = bare h' -> refers h r d -> refers h' r d.
Proof.
  intros E (n & f & H). assert (X : nth_error (bare h) r = nth_error (bare h') r) by congruence. unfold bare in X. rewrite !nth_error_map, H in X.
  cbn in X. unfold refers. destruct (nth_error h' r) as [[]|]; cbn in X; try discriminate. injection X as -> ->. eauto.
Qed.

Lemma refers_introduces h r d : refers h r d -> introduces h r = false.
Proof. intros (n & f & H). unfold introduces. now rewrite H. Qed.

(** Nodes that are not visited keep their number. *)
Lemma renumber_other : forall l i h h' r, renumber l i h = Ok h' -> ~ In r l -> nth_error h' r = nth_error h r.
Proof.
  induction l as [|x l IH]; intros i h h' r E N; cbn in E; [congruence|]. cbn in N.
  assert (X : forall c, nth_error (set_nth x c h) r = nth_error h r) by (intros c; apply set_nth_other; tauto).
  destruct (nth_error h x) as [[]|] eqn:H; try (eapply IH; [exact E|tauto]).
  - rewrite (IH _ _ _ r E) by tauto. apply X.
  - destruct def as [d|].
    + destruct (nth_error h d) as [[]|]; try discriminate. rewrite (IH _ _ _ r E) by tauto. apply X.
    + rewrite (IH _ _ _ r E) by tauto. apply X.
Qed.

Lemma number_set h r c : r < length h -> number (set_nth r c h) r = match c with CBinding _ n _ _ _ | CVariable n _ _ => Some n | _ => None end.
Proof. intros L. unfold number. rewrite set_nth_same by exact L. reflexivity. Qed.
Lemma number_other h r x c : r <> x -> number (set_nth x c h) r = number h r.
Proof. intros N. unfold number. rewrite set_nth_other by congruence. reflexivity. Qed.

(** A step: what is left to do after the first node. *)
Inductive step (h : heap) (x : ref) (i : nat) : heap -> nat -> Prop :=
  | StIntro h1 : introduces h x = true -> bare h1 = bare h -> number h1 x = Some i ->
      (forall r, r <> x -> number h1 r = number h r) -> step h x i h1 (S i)
  | StRefer h1 d : refers h x d -> bare h1 = bare h -> number h1 x = number h d ->
      (forall r, r <> x -> number h1 r = number h r) -> step h x i h1 i
  | StNone : introduces h x = false -> (forall d, ~ refers h x d) -> step h x i h i.

Lemma renumber_step x l i h h' : renumber (x :: l) i h = Ok h' ->
  exists h1 i1, step h x i h1 i1 /\ renumber l i1 h1 = Ok h'.
Proof.
  intros E. cbn in E. destruct (nth_error h x) as [c|] eqn:H.
  - assert (L : x < length h) by (apply nth_error_Some; congruence).
    destruct c;
      try (exists h, i; split; [apply StNone; [unfold introduces; now rewrite H|intros d (n' & f' & H'); congruence]|exact E]).
    + eexists _, _. split; [|exact E]. apply StIntro.
      * unfold introduces. now rewrite H.
      * eapply bare_set; [exact H|reflexivity].
      * rewrite number_set by exact L. reflexivity.
      * intros r R. apply number_other, R.
    + destruct def as [d|].
      * destruct (nth_error h d) as [[]|] eqn:D; try discriminate. eexists _, _. split; [|exact E]. apply (StRefer _ _ _ _ d).
        -- exists n, focus. exact H.
        -- eapply bare_set; [exact H|reflexivity].
        -- rewrite number_set by exact L. unfold number. now rewrite D.
        -- intros r R. apply number_other, R.
      * eexists _, _. split; [|exact E]. apply StIntro.
        -- unfold introduces. now rewrite H.
        -- eapply bare_set; [exact H|reflexivity].
        -- rewrite number_set by exact L. reflexivity.
        -- intros r R. apply number_other, R.
  - exists h, i. split; [|exact E]. apply StNone; [unfold introduces; now rewrite H|intros d (n' & f' & H'); congruence].
Qed.

Lemma step_bare h x i h1 i1 : step h x i h1 i1 -> bare h1 = bare h.
Proof. intros []; auto. Qed.
Lemma step_number h x i h1 i1 r : step h x i h1 i1 -> r <> x -> number h1 r = number h r.
Proof. intros [] N; auto. Qed.

(** A node that introduces a variable and is not visited again keeps its number. *)
Lemma renumber_keep : forall l i h h' r, renumber l i h = Ok h' -> ~ In r l -> number h' r = number h r.
Proof. intros l i h h' r E N. unfold number. now rewrite (renumber_other _ _ _ _ _ E N). Qed.

Lemma filter_bare h h1 l : bare h = bare h1 -> filter (introduces h) l = filter (introduces h1) l.
Proof. intros E. apply filter_ext. intros r. apply bare_introduces, E. Qed.

Lemma renumber_seq : forall l i h h', renumber l i h = Ok h' -> NoDup (filter (introduces h) l) ->
  forall k r, nth_error (filter (introduces h) l) k = Some r -> number h' r = Some (i + k).
Proof.
  induction l as [|x l IH]; intros i h h' E N k r K; [destruct k; discriminate|].
  destruct (renumber_step _ _ _ _ _ E) as (h1 & i1 & S & E1). assert (B := step_bare _ _ _ _ _ S).
  cbn in N, K. rewrite (filter_bare h h1 l (eq_sym B)) in N, K.
  destruct S as [h1 I _ Nx O|h1 d R _ Nx O|I NR].
  - rewrite I in N, K. inversion N as [|? ? N1 N2]; subst. destruct k as [|k].
    + cbn in K. injection K as <-. rewrite Nat.add_0_r, <- Nx. eapply renumber_keep; [exact E1|].
      intros J. apply N1, filter_In. split; [exact J|]. rewrite (bare_introduces h1 h) by exact B. exact I.
    + rewrite (IH _ _ _ E1 N2 k r K). f_equal. lia.
  - rewrite (refers_introduces _ _ _ R) in N, K. exact (IH _ _ _ E1 N k r K).
  - rewrite I in N, K. exact (IH _ _ _ E1 N k r K).
Qed.

(** A variable that is visited last after its definition has the number of it. *)
Lemma renumber_refers : forall l i h h' r d, renumber l i h = Ok h' -> NoDup (filter (introduces h) l) ->
  introduces h d = true -> refers h r d ->
  In r l -> (~ In d l -> number h' r = number h d) /\ (before l d r -> number h' r = number h' d).
Proof.
  induction l as [|x l IH]; intros i h h' r d E N Id R I; [contradiction|].
  destruct (renumber_step _ _ _ _ _ E) as (h1 & i1 & S & E1). assert (B := step_bare _ _ _ _ _ S).
  assert (ND : d <> r) by (intros ->; rewrite (refers_introduces _ _ _ R) in Id; discriminate).
  assert (R1 : refers h1 r d) by (eapply bare_refers; [symmetry; exact B|exact R]).
  assert (Id1 : introduces h1 d = true) by (rewrite (bare_introduces h1 h) by exact B; exact Id).
  assert (N1 : NoDup (filter (introduces h1) l)).
  { rewrite (filter_bare h1 h) by exact B. cbn in N. destruct (introduces h x); [inversion N; assumption|exact N]. }
  (* the number right after x = r, if r does not occur again *)
  assert (Nr : x = r -> number h1 r = number h d).
  { intros ->. destruct S as [h1 J _ _ _|h1 d' R' _ Nx _|_ NR].
    - rewrite (refers_introduces _ _ _ R) in J. discriminate.
    - destruct R as (n & f & H). destruct R' as (n' & f' & H'). rewrite H in H'. injection H' as _ -> _. exact Nx.
    - elim (NR d R). }
  split.
  - intros D. cbn in D. assert (Dx : number h1 d = number h d) by (eapply step_number; [exact S|intros ->; tauto]).
    destruct (in_dec Nat.eq_dec r l) as [J|J].
    + rewrite <- Dx. apply (proj1 (IH _ _ _ r d E1 N1 Id1 R1 J)). tauto.
    + destruct I as [->|I]; [|contradiction]. rewrite (renumber_keep _ _ _ _ _ E1 J). apply Nr. reflexivity.
  - intros (pre & mid & post & EQ). destruct pre as [|y pre]; cbn in EQ; injection EQ as -> EQ.
    + assert (J : In r l) by (rewrite EQ; apply in_or_app; right; left; reflexivity).
      assert (Nd : ~ In d l).
      { cbn in N. rewrite Id in N. inversion N as [|? ? N2 _]; subst. intros K. apply N2, filter_In. auto. }
      rewrite (proj1 (IH _ _ _ r d E1 N1 Id1 R1 J) Nd). symmetry. eapply renumber_keep; [exact E1|exact Nd].
    + assert (J : In r l) by (rewrite EQ; apply in_or_app; right; right; apply in_or_app; right; left; reflexivity).
      apply (proj2 (IH _ _ _ r d E1 N1 Id1 R1 J)). exists pre, mid, post. exact EQ.
Qed.

Theorem sequence_spec fuel h r l h' :
  visited h fuel r = Ok l -> sequence_var_nums fuel h r = Ok h' ->
  NoDup (filter (introduces h) l) ->
  map unnumbered h' = map unnumbered h /\
  (forall k x, nth_error (filter (introduces h) l) k = Some x -> number h' x = Some k) /\
  (forall x d, In x l -> refers h x d -> before l d x -> introduces h d = true -> number h' x = number h' d).
Proof.
  intros V E N. unfold sequence_var_nums in E. rewrite V in E. cbn [bind] in E. split; [exact (renumber_bare _ _ _ _ E)|]. split.
  - intros k x K. exact (renumber_seq _ _ _ _ E N k x K).
  - intros x d I R B Id. exact (proj2 (renumber_refers _ _ _ _ x d E N Id R I) B).
Qed.

(** ** The period *)

Lemma var_runes_fst U h fuel : forall l seen seen', var_runes U h fuel l seen = Ok seen' ->
  forall v, In v (map fst seen') <-> In v (map fst seen) \/ In v (variable_numbers h l).
Proof.
  induction l as [|r l IH]; intros seen seen' E v; cbn in E; [injection E as ->; cbn; tauto|].
  unfold variable_numbers. cbn [flat_map]. fold (variable_numbers h l). rewrite in_app_iff.
  destruct (nth_error h r) as [[]|]; try (rewrite (IH _ _ E); cbn; tauto).
  destruct (existsb _ seen) eqn:X.
  - rewrite (IH _ _ E). cbn. apply existsb_exists in X. destruct X as ([w y] & I & W). apply Nat.eqb_eq in W. cbn in W. subst w.
    assert (In n (map fst seen)) by (apply in_map_iff; exists (n, y); auto).
    split; [tauto|]. intros [H0|[[<-|[]]|H0]]; auto.
  - destruct (var_rune U h fuel def) as [y| |]; cbn in E; try discriminate. rewrite (IH _ _ E). rewrite map_app, in_app_iff. cbn. tauto.
Qed.

Theorem print_period U keys pretty fuel r h l s :
  visited h fuel r = Ok l ->
  (forall v w, In v (variable_numbers h l) -> w <= v -> In w (variable_numbers h l)) ->
  print U keys pretty fuel (Some (r, h)) = Ok s -> exists body, s = (body ++ ".")%string.
Proof.
  intros V D E. unfold print in E. rewrite V in E. cbn [bind] in E.
  destruct (var_runes U h fuel l []) as [seen| |] eqn:R; cbn [bind] in E; try discriminate.
  assert (N : NoDup (map fst seen)) by (eapply var_runes_NoDup; [|exact R]; constructor).
  assert (F := var_runes_fst _ _ _ _ _ _ R). cbn in F.
  destruct (negb _ && _) eqn:B.
  - exfalso. apply andb_true_iff in B. destruct B as [B1 B2]. apply Nat.leb_le in B2.
    assert (M : In (max_number seen) (map fst seen)).
    { destruct seen as [|p q]; [discriminate|]. clear. unfold max_number.
      assert (G : forall q m (base : list nat), In m base -> In (fold_left (fun m (p : nat * string) => Nat.max m (fst p)) q m) (base ++ map fst q)).
      { induction q0 as [|x q0 IH]; intros m base I; cbn; [rewrite app_nil_r; exact I|].
        assert (X := IH (Nat.max m (fst x)) (base ++ [fst x])). rewrite <- app_assoc in X. apply X. apply in_or_app.
        destruct (Nat.max_spec m (fst x)) as [[_ ->]|[_ ->]]; [right; left; reflexivity|left; exact I]. }
      cbn. specialize (G q (fst p) [fst p] (or_introl eq_refl)). exact G. }
    assert (I : incl (seq 0 (S (max_number seen))) (map fst seen)).
    { intros w W. apply in_seq in W. apply F. right. apply (D (max_number seen)); [|lia]. apply F in M. destruct M as [[]|M]; exact M. }
    apply NoDup_incl_length in I; [|apply seq_NoDup]. rewrite seq_length, map_length in I. lia.
  - destruct (var_names _ seen) as [names| |]; cbn [bind] in E; try discriminate.
    destruct (show pretty (Some names) h fuel r) as [body| |]; cbn [bind] in E; try discriminate. injection E as <-. eauto.
Qed.
