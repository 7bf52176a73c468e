(** The trees of first-order sentences are scoped. *)

From Coq Require Import String NArith List Bool Arith Lia.
From Verif Require Import Base PegSyntax Tone Ast AstSorts Logic LogicWords LogicSpec ScopeSpec Interp Simplify OrderFacts SeqFacts TermFacts LogicApi ScopeFacts ScopeInterp ScopeRun.
Import ListNotations.
Open Scope string_scope.
Open Scope list_scope.
Open Scope nat_scope.

(** ** Free variables and scopes *)

Lemma occurs_free h r sc x d : occurs h r sc x -> refers h x d -> ~ In d sc -> free h r d.
Proof.
  intros O (n & f & R). induction O as [r|r c k sc x E I O IH]; intros N; [econstructor 1; exact R|].
  econstructor 2; [exact E|exact I| |].
  - apply IH; [exact R|]. intros J. apply N. destruct c; try exact J. right. exact J.
  - intros B ->. destruct c; try discriminate. apply N. left. reflexivity.
Qed.
Lemma closed_scoped h r : (forall d, ~ free h r d) -> scoped (r, h).
Proof.
  intros C sc x d O R. cbn [fst snd] in *. destruct (in_dec Nat.eq_dec d sc) as [I|N]; [exact I|]. destruct (C d). eapply occurs_free; eassumption.
Qed.

Lemma bare_nth h h' i : bare h = bare h' -> option_map unnumbered (nth_error h i) = option_map unnumbered (nth_error h' i).
Proof. intros B. rewrite <- !nth_error_map. unfold bare in B. now rewrite B. Qed.
Lemma free_bare h h' r d : bare h = bare h' -> free h r d -> free h' r d.
Proof.
  intros B K. induction K as [r n d f E|r c x d E I K IH N]; assert (X := bare_nth _ _ r B); rewrite E in X; cbn [option_map] in X;
    destruct (nth_error h' r) as [c'|] eqn:E'; try discriminate; injection X as X.
  - destruct c'; try discriminate. injection X as <- <-. econstructor 1; exact E'.
  - econstructor 2; [exact E'| |exact IH|].
    + destruct c, c'; cbn in X; try discriminate; injection X; intros; subst; exact I.
    + intros B'. apply N. destruct c, c'; cbn in X; try discriminate; reflexivity.
Qed.

(** ** addHoa *)

(** [x] belongs to the restriction of [bd]. *)
Inductive und (h : heap) (bd : ref) : ref -> Prop :=
  | UR q n f x sc : nth_error h bd = Some (CBinding q n f (Some x) sc) -> und h bd x
  | UC c k x y z : und h bd c -> nth_error h c = Some (CConnection k x y) -> (z = x \/ z = y) -> und h bd z.

Definition not_pred (c : cell) : Prop := match c with CPredication _ _ => False | _ => True end.
Definition keep (h h' : heap) : Prop := forall i c, nth_error h i = Some c -> not_pred c -> nth_error h' i = Some c.
Lemma und_keep h h' bd x : keep h h' -> und h bd x -> und h' bd x.
Proof. intros K U. induction U as [q n f x sc E|c k x y z U IH E Z]; [econstructor 1; apply K; [exact E|exact I]|econstructor 2; [exact IH|apply K; [exact E|exact I]|exact Z]]. Qed.
Lemma keep_trans a b c : keep a b -> keep b c -> keep a c.
Proof. intros X Y i d E N. apply Y; [apply X|]; assumption. Qed.
Lemma und_child h bd x : und h bd x -> exists i, child h i x /\ (i = bd \/ und h bd i).
Proof.
  intros U. inversion U as [q n f ? sc E|c k y z ? U' E Z]; subst.
  - exists bd. split; [eexists; split; [exact E|left; reflexivity]|auto].
  - exists c. split; [eexists; split; [exact E|cbn; destruct Z; auto]|auto].
Qed.
Lemma und_stmt h bd x : wf h -> und h bd x -> stmt h x.
Proof.
  intros W U. inversion U as [q n f ? sc E|c k y z ? U' E Z]; subst.
  - destruct (w_kind _ W _ _ x E) as (c' & E' & S); [left; reflexivity|]. exists c'. auto.
  - destruct (w_kind _ W _ _ x E) as (c' & E' & S); [cbn; destruct Z; auto|]. exists c'. auto.
Qed.

(** Adding an argument to a predication that has none. *)
Section Add.
Variables (h : heap) (r bd p n : nat).
Hypothesis W : wf h.
Hypothesis Er : nth_error h r = Some (CPredication p []).
Hypothesis U : und h bd r.
Let c' := CPredication p [Some (length h)].
Definition added : heap := set_nth r (CPredication p [Some (length h)]) (h ++ [CVariable n (Some bd) false]).

Lemma added_r : nth_error added r = Some c'.
Proof. apply set_nth_same. rewrite app_length. apply nth_lt in Er. lia. Qed.
Lemma added_v : nth_error added (length h) = Some (CVariable n (Some bd) false).
Proof. unfold added. rewrite set_nth_other by (apply nth_lt in Er; lia). apply nth_snoc. Qed.
Lemma added_old i : i < length h -> i <> r -> nth_error added i = nth_error h i.
Proof. intros L N. unfold added. rewrite set_nth_other by auto. apply nth_snoc_old, L. Qed.
Lemma added_inv i c : nth_error added i = Some c ->
  (i = r /\ c = c') \/ (i = length h /\ c = CVariable n (Some bd) false) \/ (i <> r /\ i < length h /\ nth_error h i = Some c).
Proof.
  intros E. destruct (Nat.eq_dec i r) as [->|N]; [rewrite added_r in E; injection E as <-; auto|].
  destruct (Nat.eq_dec i (length h)) as [->|N']; [rewrite added_v in E; injection E as <-; auto|].
  assert (L := nth_lt _ _ _ E). unfold added in L. rewrite set_nth_length, app_length in L. cbn in L. rewrite added_old in E by lia. right. right. split; [exact N|]. split; [lia|exact E].
Qed.
Lemma added_child i x : child added i x -> (i = r /\ (x = p \/ x = length h)) \/ (i <> r /\ child h i x).
Proof.
  intros (c & E & I). apply added_inv in E. destruct E as [[-> ->]|[[-> ->]|(N & L & E)]].
  - cbn in I. intuition auto.
  - destruct I.
  - right. split; [exact N|]. exists c. auto.
Qed.
Lemma added_kind i c : nth_error h i = Some c -> exists d, nth_error added i = Some d /\ is_stmt d = is_stmt c.
Proof.
  intros E. destruct (Nat.eq_dec i r) as [->|N]; [exists c'; rewrite added_r; split; [reflexivity|rewrite Er in E; injection E as <-; reflexivity]|].
  exists c. rewrite added_old; [auto|eapply nth_lt, E|exact N].
Qed.
Lemma p_atom : exists c, nth_error h p = Some c /\ is_stmt c = false.
Proof. destruct (w_kind _ W _ _ p Er) as (c & E & S); [left; reflexivity|]. eauto. Qed.
Lemma added_wf : wf added.
Proof.
  split.
  - intros i c x E I. apply added_inv in E. destruct E as [[-> ->]|[[-> ->]|(N & L & E)]].
    + destruct I as [<-|[<-|[]]].
      * destruct p_atom as (cp & Ep & Sp). destruct (added_kind _ _ Ep) as (d & Ed & Sd). exists d. split; [exact Ed|]. cbn. congruence.
      * exists (CVariable n (Some bd) false). split; [apply added_v|reflexivity].
    + destruct I.
    + destruct (w_kind _ W _ _ _ E I) as (d & Ed & Sd). destruct (added_kind _ _ Ed) as (e & Ee & Se). exists e. split; [exact Ee|congruence].
  - intros i j x Ci Cj (c & E & S).
    assert (Old : forall k, child added k x -> child h k x).
    { intros k C. apply added_child in C. destruct C as [[-> [-> | ->]]|[_ C]]; [| |exact C]; exfalso.
      - destruct p_atom as (cp & Ep & Sp). destruct (added_kind _ _ Ep) as (d & Ed & Sd). congruence.
      - rewrite added_v in E. injection E as <-. discriminate. }
    apply Old in Ci, Cj. eapply (w_own _ W); [exact Ci|exact Cj|]. assert (L := child_lt _ _ _ W Ci).
    destruct (nth_error h x) as [d|] eqn:Ex; [|apply nth_error_None in Ex; lia]. destruct (added_kind _ _ Ex) as (e & Ee & Se). exists d. split; [exact Ex|congruence].
  - intros i c E. apply added_inv in E. destruct E as [[-> ->]|[[-> ->]|(N & L & E)]]; [reflexivity|reflexivity|eapply (w_fo _ W), E].
  - intros i c E Hc. apply added_inv in E. destruct E as [[-> ->]|[[-> ->]|(N & L & E)]]; [discriminate|discriminate|eapply (w_two _ W); eassumption].
  - destruct (w_rank _ W) as (rk & R). exists (give rk (length h) 0). assert (Lr := nth_lt _ _ _ Er). destruct p_atom as (cp & Ep & _). apply nth_lt in Ep.
    assert (Rp : rk p < rk r) by (apply R; eexists; split; [exact Er|left; reflexivity]).
    intros i x C. apply added_child in C. destruct C as [[-> [-> | ->]]|[N C]].
    + rewrite !give_other by lia. exact Rp.
    + rewrite give_same, give_other by lia. lia.
    + assert (Lx := child_lt _ _ _ W C). assert (Li : i < length h) by (destruct C as (d & E & _); eapply nth_lt, E). rewrite !give_other by lia. apply R, C.
Qed.
Lemma added_keep : keep h added.
Proof. intros i c E N. rewrite added_old; [exact E|eapply nth_lt, E|]. intros ->. rewrite Er in E. injection E as <-. exact N. Qed.
Lemma added_orphan x : x < length h -> orphan h x -> stmt h x -> orphan added x.
Proof.
  intros L O (c & E & S) i C. apply added_child in C. destruct C as [[-> [-> | ->]]|[_ C]]; [|lia|exact (O _ C)].
  destruct p_atom as (cp & Ep & Sp). congruence.
Qed.
Lemma added_free x d : free added x d -> free h x d \/ (d = bd /\ (x = length h \/ und h bd x)).
Proof.
  intros K. induction K as [x m d f E|x c k d E I K IH N].
  - apply added_inv in E. destruct E as [[-> X]|[[-> X]|(_ & _ & E)]]; [discriminate|injection X as -> -> ->; auto|left; econstructor 1; exact E].
  - apply added_inv in E. destruct E as [[-> ->]|[[-> ->]|(Nr & L & E)]]; [|destruct I|].
    + destruct I as [<-|[<-|[]]].
      * destruct IH as [F|[_ [F|F]]].
        -- left. econstructor 2; [exact Er|left; reflexivity|exact F|discriminate].
        -- destruct p_atom as (cp & Ep & _). apply nth_lt in Ep. lia.
        -- destruct p_atom as (cp & Ep & Sp). destruct (und_stmt _ _ _ W F) as (c2 & E2 & S2). congruence.
      * destruct IH as [F|[-> _]]; [inversion F as [? ? ? ? X|? ? ? ? X]; subst; apply nth_lt in X; lia|]. right. auto.
    + destruct IH as [F|[-> [->|F]]].
      * left. econstructor 2; [exact E|exact I|exact F|exact N].
      * assert (X : child h x (length h)) by (exists c; auto). apply (child_lt _ _ _ W) in X. lia.
      * destruct (und_child _ _ _ F) as (i & C & D). assert (Q : x = i) by (eapply (w_own _ W); [exists c; eauto|exact C|eapply und_stmt; eassumption]). subst i.
        destruct D as [->|D]; [|auto]. destruct (C) as (cb & Eb & Ib). rewrite E in Eb. injection Eb as <-.
        exfalso. apply N; [|reflexivity]. clear - F E U W I.
        destruct (und_child _ _ _ U) as (i & _ & _). assert (B : exists q m f rs sc, nth_error h bd = Some (CBinding q m f rs sc)).
        { clear - U. induction U; eauto 10. }
        destruct B as (q & m & f & rs & sc & B). rewrite E in B. injection B as ->. reflexivity.
Qed.
End Add.

Section Root.
Variable root : ref.

Record closed (h : heap) : Prop := Closed {
  c_wf : wf h;
  c_stmt : stmt h root;
  c_orphan : orphan h root;
  c_free : forall d, ~ free h root d }.

Lemma added_closed h r bd p n : closed h -> nth_error h r = Some (CPredication p []) -> und h bd r -> closed (added h r bd p n) /\ keep h (added h r bd p n).
Proof.
  intros [W S O F] E U. assert (L := stmt_lt _ _ S). split; [|apply added_keep; assumption]. split.
  - apply added_wf; assumption.
  - destruct S as (c & Ec & Sc). destruct (added_kind h r bd p n E _ _ Ec) as (d & Ed & Sd). exists d. split; [exact Ed|congruence].
  - apply added_orphan; assumption.
  - intros d K. apply added_free in K; try assumption. destruct K as [K|[_ [K|K]]]; [exact (F _ K)|lia|].
    destruct (und_child _ _ _ K) as (i & C & _). exact (O _ C).
Qed.

(** No change below atoms. *)
Lemma hoa_atom : forall f x b s u s', add_hoa f x b s = Ok (u, s') -> wf (x_heap s) -> ~ stmt (x_heap s) x -> s' = s.
Proof.
  induction f as [|f IH]; intros x b s u s' H W N; [discriminate|]. cbn [add_hoa] in H. minv H. unfold get in E.
  destruct (nth_error (x_heap s) x) as [c|] eqn:Ex; [|discriminate]. injection E as <- <-.
  assert (Sc : is_stmt c = false) by (destruct (is_stmt c) eqn:Sc; [exfalso; apply N; exists c; auto|reflexivity]).
  assert (Fo := w_fo _ W _ _ Ex).
  assert (Ch : forall k, In k (below c) -> ~ stmt (x_heap s) k).
  { intros k I (c2 & E2 & S2). destruct (w_kind _ W _ _ _ Ex I) as (c3 & E3 & S3). destruct c; try discriminate; cbn in S3; congruence. }
  destruct c; try discriminate.
  - minv H. subst. reflexivity.
  - minv H. subst. reflexivity.
  - minv H. apply IH in E; [|exact W|apply Ch; left; reflexivity]. subst s0. minv H. apply IH in E; [|exact W|apply Ch; right; left; reflexivity]. subst s0.
    minv H. congruence.
Qed.
Lemma hoa_args f : forall l used s u s', used_args (fun a => add_hoa f a None) l used s = Ok (u, s') -> wf (x_heap s) ->
  (forall x, In (Some x) l -> ~ stmt (x_heap s) x) -> s' = s.
Proof.
  induction l as [|[x|] l IH]; intros used s u s' H W N; cbn [used_args] in H.
  - minv H. congruence.
  - minv H. apply hoa_atom in E; [|exact W|apply N; left; reflexivity]. subst. eapply IH; [exact H|exact W|]. intros y I. apply N. right. exact I.
  - eapply IH; [exact H|exact W|]. intros y I. apply N. right. exact I.
Qed.

Lemma hoa_closed : forall f x b s u s', add_hoa f x b s = Ok (u, s') -> closed (x_heap s) -> (forall bd, b = Some bd -> und (x_heap s) bd x) ->
  closed (x_heap s') /\ keep (x_heap s) (x_heap s') /\ x_sub s' = x_sub s.
Proof.
  induction f as [|f IH]; intros x b s u s' H C U; [discriminate|]. cbn [add_hoa] in H. minv H. unfold get in E.
  destruct (nth_error (x_heap s) x) as [c|] eqn:Ex; [|discriminate]. injection E as <- <-.
  assert (W := c_wf _ C). assert (Keep : forall h, keep h h) by (intros h i c0 E0 _; exact E0).
  assert (Done : s' = s -> closed (x_heap s') /\ keep (x_heap s) (x_heap s') /\ x_sub s' = x_sub s) by (intros ->; auto).
  assert (No : forall y bd, @None ref = Some bd -> und y bd x) by discriminate.
  assert (Fo := w_fo _ W _ _ Ex). destruct c; try discriminate.
  - (* binding *) minv H. assert (K1 : closed (x_heap s0) /\ keep (x_heap s) (x_heap s0) /\ x_sub s0 = x_sub s).
    { destruct restriction as [y|]; [|minv E; subst; auto]. eapply IH; [exact E|exact C|]. intros bd X. injection X as <-. econstructor 1. exact Ex. }
    destruct K1 as (C1 & K1 & S1). destruct scope as [y|]; [|discriminate]. minv H. destruct (IH _ _ _ _ _ E0 C1) as (C2 & K2 & S2); [discriminate|].
    minv H. subst. split; [exact C2|]. split; [eapply keep_trans; eassumption|congruence].
  - (* connection *) minv H. destruct (IH _ _ _ _ _ E C) as (C1 & K1 & S1).
    { intros bd X. econstructor 2; [apply U, X|exact Ex|left; reflexivity]. }
    minv H. destruct (IH _ _ _ _ _ E0 C1) as (C2 & K2 & S2).
    { intros bd X. eapply und_keep; [exact K1|]. econstructor 2; [apply U, X|exact Ex|right; reflexivity]. }
    minv H. subst. split; [exact C2|]. split; [eapply keep_trans; eassumption|congruence].
  - (* predication *)
    assert (Ch : forall k, In k (below (CPredication p args)) -> ~ stmt (x_heap s) k).
    { intros k I (c2 & E2 & S2). destruct (w_kind _ W _ _ _ Ex I) as (c3 & E3 & S3). cbn in S3. congruence. }
    minv H. apply hoa_atom in E; [|exact W|apply Ch; left; reflexivity]. subst s0.
    minv H. apply hoa_args in E; [|exact W|].
    2: { intros y I. apply Ch. right. apply in_flat_map. exists (Some y). split; [exact I|left; reflexivity]. }
    subst s0. destruct b as [bd|]; [|destruct args; minv H; apply Done; congruence]. destruct args as [|a1 l]; [|minv H; apply Done; congruence].
    minv H. unfold get in E. destruct (nth_error (x_heap s) bd) as [cb|] eqn:Eb; [|discriminate]. injection E as <- <-. destruct cb; try discriminate.
    destruct (existsb (Nat.eqb n) a0); [minv H; apply Done; congruence|]. minv H. injection E as <- <-. minv H. injection E as <-. minv H. subst s'. cbn [x_heap x_sub].
    destruct (added_closed _ _ bd _ n C Ex (U _ eq_refl)) as (C1 & K1). auto.
  - minv H. apply Done. congruence.
  - minv H. apply Done. congruence.
  - (* serial *)
    assert (Ch : forall k, In k (below (CSerial l r)) -> ~ stmt (x_heap s) k).
    { intros k I (c2 & E2 & S2). destruct (w_kind _ W _ _ _ Ex I) as (c3 & E3 & S3). cbn in S3. congruence. }
    minv H. apply hoa_atom in E; [|exact W|apply Ch; left; reflexivity]. subst s0. minv H. apply hoa_atom in E; [|exact W|apply Ch; right; left; reflexivity]. subst s0.
    minv H. apply Done. congruence.
Qed.
End Root.

(** ** simplify *)

Lemma set_same i (c : cell) s u s' : set i c s = Ok (u, s') -> nth_error (x_heap s) i = Some c -> s' = s.
Proof. intros H E. destruct u; injection H as <-. rewrite set_nth_id by exact E. destruct s; reflexivity. Qed.
Lemma get_inv i s c s' : get i s = Ok (c, s') -> s' = s /\ nth_error (x_heap s) i = Some c.
Proof. unfold get. destruct (nth_error (x_heap s) i); [|discriminate]. intros H. injection H as <- <-. auto. Qed.

Definition plain_heap (h : heap) : Prop := forall i c, nth_error h i = Some c -> fo_cell c = true.
Lemma sub_plain pv q rs s b s' : sub pv q rs s = Ok (b, s') -> plain_heap (x_heap s) -> b = false /\ s' = s.
Proof.
  intros H P. unfold sub in H. destruct rs as [p|]; [|minv H; auto]. minv H. apply get_inv in E. destruct E as [-> _].
  destruct a; try (minv H; auto; fail). destruct args as [|[a0|] [|[a1|] [|]]]; try (minv H; auto; fail).
  destruct q; try (minv H; auto; fail).
  all: minv H; apply get_inv in E; destruct E as [-> _]; destruct a; try (minv H; auto; fail).
  all: destruct (negb _); [minv H; auto|]; minv H; apply get_inv in E; destruct E as [-> E0]; minv H; apply get_inv in E; destruct E as [-> E1]; apply P in E0, E1.
  all: minv H.
  all: destruct a, a2; try discriminate; minv E; subst; try (minv H; auto; fail).
  all: destruct (existsb _ pv); [|cbn [is_constant] in H]; minv H; auto.
Qed.

Lemma map_plain f : forall l s r s', map_args f l s = Ok (r, s') -> (forall x s0 o s1, In (Some x) l -> s0 = s -> f x s0 = Ok (o, s1) -> o = Some x /\ s1 = s0) -> r = l /\ s' = s.
Proof.
  induction l as [|[x|] l IH]; intros s r s' H F; cbn [map_args] in H.
  - minv H. auto.
  - minv H. destruct (F _ _ _ _ (or_introl eq_refl) eq_refl E) as (-> & ->). minv H. apply IH in E0; [|intros; eapply F; [right; eassumption|assumption..]]. destruct E0 as [-> ->]. minv H. auto.
  - minv H. apply IH in E; [|intros; eapply F; [right; eassumption|assumption..]]. destruct E as [-> ->]. minv H. auto.
Qed.

Lemma simplify_plain pv : forall f k r s o s', simplify pv f k r s = Ok (o, s') -> plain_heap (x_heap s) -> x_sub s = [] -> o = Some r /\ s' = s.
Proof.
  induction f as [|f IH]; intros k r s o s' H P X; [discriminate|]. cbn [simplify] in H. minv H. apply get_inv in E. destruct E as [-> Er].
  assert (Fo := P _ _ Er).
  assert (Nd : forall k x s0 y s1, s0 = s -> (do o <- simplify pv f k x ; match o with Some y => ret y | None => crash end) s0 = Ok (y, s1) -> y = x /\ s1 = s0).
  { intros k0 x s0 y s1 -> Hn. minv Hn. destruct (IH _ _ _ _ _ E P X) as [-> ->]. minv Hn. auto. }
  destruct k, a; try discriminate.
  - (* binding *) minv H.
    assert (R : a = restriction /\ s0 = s).
    { destruct restriction as [x|]; [|minv E; auto]. minv E. destruct (Nd _ _ _ _ _ eq_refl E0) as [-> ->]. minv E. auto. }
    destruct R as [-> ->]. minv H. apply set_same in E0; [|exact Er]. subst s0. destruct scope as [x|]; [|discriminate].
    minv H. apply sub_plain in E0; [|exact P]. destruct E0 as [-> ->]. minv H. destruct (Nd _ _ _ _ _ eq_refl E0) as [-> ->].
    minv H. apply set_same in E1; [|exact Er]. subst s0. minv H. auto.
  - (* connection *) minv H. destruct (Nd _ _ _ _ _ eq_refl E) as [-> ->]. minv H. destruct (Nd _ _ _ _ _ eq_refl E0) as [-> ->].
    minv H. apply set_same in E1; [|exact Er]. subst s0. minv H. auto.
  - (* predication *) minv H. apply map_plain in E; [|intros x s0' o' s1' I -> Hx; exact (IH _ _ _ _ _ Hx P X)]. destruct E as [-> ->].
    minv H. apply set_same in E; [|exact Er]. subst s0. minv H. apply get_inv in E. destruct E as [-> Ep]. assert (Fp := P _ _ Ep).
    destruct a; try discriminate; minv H; destruct (Nd _ _ _ _ _ eq_refl E) as [-> ->]; minv H; (apply set_same in E0; [|exact Er]); subst s0; minv H; auto.
  - minv H. unfold substituted in E. rewrite X in E. cbn in E. injection E as <- <-. minv H. auto.
  - minv H. auto.
  - minv H. auto.
  - (* serial *) minv H. destruct (Nd _ _ _ _ _ eq_refl E) as [-> ->]. minv H. destruct (Nd _ _ _ _ _ eq_refl E0) as [-> ->].
    minv H. apply set_same in E1; [|exact Er]. subst s0. minv H. auto.
Qed.

(** ** The tree *)

Theorem first_order_closed U d r h : outcome U d (Ok (Some (r, h))) ->
  (forall n, In n d -> sentence_item n -> first_order U (o_letters diacritic) n = true) ->
  exists h0, closed r h0 /\ bare h = bare h0.
Proof.
  intros [_ [fuel O]] Fo. specialize (O fuel (le_n _)). unfold interpret in O.
  destruct (discourse U (o_letters diacritic) fuel fuel d st0) as [[[x|] s]| |] eqn:D; cbn [bind] in O; try discriminate.
  apply discourse_closed in D; [|exact Fo]. destruct D as [W _ S Or' _ F].
  unfold simplify_statement in O. destruct (add_hoa fuel x None (SSt (s_heap s) [])) as [[u s1]| |] eqn:A; cbn [bind] in O; try discriminate.
  apply hoa_closed with (root := x) in A; [|split; assumption|discriminate]. destruct A as (C & _ & Sx). cbn [fst snd x_heap x_sub] in *.
  destruct (pred_vars fuel (x_heap s1) x) as [pv| |]; cbn [bind] in O; try discriminate.
  destruct (simplify pv fuel RStatement x (SSt (x_heap s1) [])) as [[o s2]| |] eqn:Si; cbn [bind] in O; try discriminate.
  apply simplify_plain in Si; [|exact (w_fo _ (c_wf _ _ C))|reflexivity]. destruct Si as [-> ->]. cbn [x_heap] in O.
  destruct (sequence_var_nums fuel (x_heap s1) x) as [h2| |] eqn:Sq; cbn [bind] in O; try discriminate. injection O as -> ->.
  exists (x_heap s1). split; [exact C|]. unfold sequence_var_nums in Sq. destruct (visited (x_heap s1) fuel r) as [l| |]; cbn [bind] in Sq; try discriminate.
  eapply renumber_bare, Sq.
Qed.

Theorem first_order_scoped U d t : outcome U d (Ok (Some t)) ->
  (forall n, In n d -> sentence_item n -> first_order U (o_letters diacritic) n = true) -> scoped t.
Proof.
  destruct t as [r h]. intros O Fo. destruct (first_order_closed _ _ _ _ O Fo) as (h0 & C & B). apply closed_scoped. intros d' K.
  apply (c_free _ _ C d'). eapply free_bare; eassumption.
Qed.
