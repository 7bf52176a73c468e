(** Interpret and String return for first-order sentences. *)

From Coq Require Import String NArith List Bool Arith Lia.
From Verif Require Import Base PegSyntax Tone Ast AstSorts Logic LogicWords LogicSpec LogicString ScopeSpec Interp Simplify OrderFacts SeqFacts TermFacts LogicApi
  ScopeFacts ScopeInterp ScopeRun ScopeSimp ScopeEnds.
From Verif Require Parser Parser LogicSafe.
Import ListNotations.
Open Scope string_scope.
Open Scope list_scope.
Open Scope nat_scope.

(** ** discourse *)

Section Discourse.
Variables (U : unicode) (ol : list (N * N)).
Notation fo := (first_order U ol).

Lemma items_end : forall d o s, fo_items U ol d -> good s -> ext st0 s -> (forall x, o = Some x -> made st0 s All x) ->
  ends (fun v f => all_items U ol v f d o) s.
Proof.
  induction d as [|n d IHd]; intros o s Fo G X M; cbn [all_items]; [apply ends_const; discriminate|].
  assert (Fo' : fo_items U ol d) by (intros m J; apply Fo; right; exact J).
  destruct (is_fragment n); [apply IHd; assumption|]. destruct (is_sentence n) eqn:Sn; [|apply ends_const; discriminate].
  assert (Fn : fo n = true).
  { apply Fo; [left; reflexivity|]. destruct n; try discriminate Sn; [left; eauto|]. destruct k; try discriminate Sn. right. eauto 6. }
  eapply ends_bind; [apply (h_sent _ _ _ (run_ends U ol (S (weight n)))); [lia|assumption..]|]. intros x s1 Y.
  destruct (y_sent _ _ _ _ _ _ Y Fn G) as (Mx & _). assert (G1 := m_good _ _ _ _ Mx). assert (X1 := m_ext _ _ _ _ Mx). destruct o as [x0|].
  - eapply (ends_bind (fun _ _ => _)); [apply ends_const; discriminate|]. intros z s2 Z. apply yields_const in Z. specialize (M _ eq_refl).
    destruct (conn2 _ _ _ _ _ _ _ _ _ M Mx Z) as (Mz & _). apply IHd; [exact Fo'|exact (m_good _ _ _ _ Mz)|exact (m_ext _ _ _ _ Mz)|]. intros w W. injection W as <-. exact Mz.
  - apply IHd; [exact Fo'|exact G1|exact (ext_trans _ _ _ G X X1)|]. intros w W. injection W as <-. exact (made_earlier _ _ _ _ _ G X Mx).
Qed.

Lemma bind_all_ends : forall l r s, fin (s_heap s) l r -> ends (fun v _ => bind_all v (rev l) (Some r)) s.
Proof.
  intros l. induction l as [|b l IHl] using rev_ind; intros r s K; [apply ends_const; discriminate|].
  rewrite rev_unit. cbn [bind_all]. destruct (n_the _ _ _ K l b [] eq_refl) as (_ & _ & n & f & rs & B & _).
  apply (ends_bind (fun v _ => bind_scope v (Some b) r)); [eapply bind_scope_ends, B|]. intros z s1 Y. apply yields_some in Y. destruct Y as (v & f' & Y).
  destruct (bind_one_fin _ _ _ _ _ _ _ Y K) as (-> & K'). apply IHl, K'.
Qed.

Lemma discourse_ends d : fo_items U ol d -> ends (fun v f => discourse U ol v f d) st0.
Proof.
  intros Fo. unfold discourse. eapply ends_bind; [apply items_end; [exact Fo|exact good0|apply ext_refl, good0|discriminate]|]. intros o s Y. apply yields_some in Y. destruct Y as (v & f & Y).
  eapply (ends_bind (fun _ _ => _)); [apply ends_const; discriminate|]. intros the s1 Z. apply yields_const in Z. injection Z as <- <-. destruct o as [r|].
  - assert (M := items_made U ol v f d None st0 r s Y Fo good0 (ext_refl _ good0) eq_refl ltac:(discriminate)). apply bind_all_ends.
    destruct M as [[W T _ _] X N S O Nt F]. split; try assumption. intros b D. destruct (F _ D) as [[]|K]. exact K.
  - destruct (rev (s_the s)); cbn [bind_all]; apply ends_const; discriminate.
Qed.
End Discourse.

(** ** simplify *)

Definition level (rk : ref -> nat) (h : heap) : Prop := ranked rk h /\ forall i, length h <= i -> rk i = 0.
Lemma wf_level h : wf h -> exists rk, level rk h.
Proof.
  intros W. destruct (w_rank _ W) as (rk & R). exists (fun i => if i <? length h then rk i else 0). split.
  - intros i x C. assert (Lx := child_lt _ _ _ W C). assert (Li : i < length h) by (destruct C as (c & E & _); eapply nth_lt, E).
    apply Nat.ltb_lt in Lx, Li. rewrite Lx, Li. apply R, C.
  - intros i L. apply Nat.ltb_ge in L. rewrite L. reflexivity.
Qed.

Definition post {A} (Q : sst -> Prop) (r : res (A * sst)) : Prop :=
  match r with Ok (_, s) => Q s | Panic _ => True | NoFuel => False end.
Lemma post_bind {A B} (Q Q' : sst -> Prop) (m : SM A) (k : A -> SM B) s : post Q (m s) -> (forall a s', Q s' -> post Q' (k a s')) -> post Q' (mbind m k s).
Proof. unfold mbind. destruct (m s) as [[a s']| |]; cbn; auto. Qed.
Lemma post_get {B} Q r (k : cell -> SM B) s : (forall c, nth_error (x_heap s) r = Some c -> post Q (k c s)) -> post Q (mbind (get r) k s).
Proof. unfold mbind, get. destruct (nth_error (x_heap s) r) as [c|]; cbn; auto. Qed.

Lemma hoa_ends rk : forall f r b s, level rk (x_heap s) -> rk r < f -> post (fun s' => level rk (x_heap s')) (add_hoa f r b s).
Proof.
  induction f as [|f IH]; intros r b s L Lt; [lia|]. cbn [add_hoa]. apply post_get. intros c E.
  assert (Ch : forall x, In x (below c) -> rk x < f) by (intros x J; assert (rk x < rk r) by (apply (proj1 L); exists c; auto); lia).
  assert (Args : forall args used s, (forall x, In (Some x) args -> rk x < f) -> level rk (x_heap s) ->
    post (fun s' => level rk (x_heap s')) (used_args (fun a => add_hoa f a None) args used s)).
  { induction args as [|[x|] args IHa]; intros used s0 H L0; cbn [used_args]; [exact L0| |].
    - eapply post_bind; [apply IH; [exact L0|apply H; left; reflexivity]|]. intros u s1 L1. apply IHa; [|exact L1]. intros y J. apply H. right. exact J.
    - apply IHa; [|exact L0]. intros y J. apply H. right. exact J. }
  destruct c; cbn [below] in Ch.
  - eapply post_bind with (Q := fun s' => level rk (x_heap s')).
    + destruct restriction as [x|]; [|exact L]. apply IH; [exact L|]. apply Ch. left. reflexivity.
    + intros u s1 L1. destruct scope as [x|]; [|exact I]. eapply post_bind; [apply IH; [exact L1|apply Ch, in_or_app; right; left; reflexivity]|]. intros w s2 L2. exact L2.
  - eapply post_bind; [apply IH; [exact L|apply Ch; left; reflexivity]|]. intros u s1 L1.
    eapply post_bind; [apply IH; [exact L1|apply Ch; right; left; reflexivity]|]. intros w s2 L2. exact L2.
  - eapply post_bind with (Q := fun s' => level rk (x_heap s') /\ (args = [] -> nth_error (x_heap s') r = Some (CPredication p []) \/ True)).
    { assert (K := IH p None s L ltac:(apply Ch; left; reflexivity)). destruct (add_hoa f p None s) as [[u s1]| |]; cbn in *; auto. }
    intros u s1 [L1 _]. eapply post_bind; [apply Args; [|exact L1]|].
    { intros x J. apply Ch. right. apply in_flat_map. exists (Some x). split; [exact J|left; reflexivity]. }
    intros w s2 L2. destruct b as [bd|], args; try exact L2. apply post_get. intros cb _. destruct cb; try exact I. destruct (existsb _ _); [exact L2|].
    cbn. destruct L2 as [R2 Z2]. split.
    + intros i x (c & Ei & J). destruct (Nat.eq_dec i r) as [->|Ni].
      * assert (Rp : rk p < rk r) by (apply (proj1 L); exists (CPredication p []); split; [exact E|left; reflexivity]).
        destruct (Nat.lt_ge_cases r (length (x_heap s2 ++ [CVariable n (Some bd) false]))) as [K|K].
        -- rewrite set_nth_same in Ei by exact K. injection Ei as <-. destruct J as [<-|[<-|[]]]; [exact Rp|]. rewrite (Z2 (length (x_heap s2))) by lia. lia.
        -- apply nth_lt in Ei. rewrite set_nth_length in Ei. lia.
      * rewrite set_nth_other in Ei by auto. apply nth_snoc_inv in Ei. destruct Ei as [[Li Ei]|[-> ->]]; [apply R2; exists c; auto|destruct J].
    + intros i Li. apply Z2. rewrite set_nth_length, app_length in Li. cbn in Li. lia.
  - exact L.
  - apply Args; [|exact L]. intros x J. apply Ch. apply in_flat_map. exists (Some x). split; [exact J|left; reflexivity].
  - exact L.
  - exact L.
  - apply IH; [exact L|]. apply Ch. left. reflexivity.
  - eapply post_bind; [apply IH; [exact L|apply Ch; left; reflexivity]|]. intros u s1 L1.
    eapply post_bind; [apply IH; [exact L1|apply Ch; right; left; reflexivity]|]. intros w s2 L2. exact L2.
  - apply IH; [exact L|]. apply Ch. left. reflexivity.
Qed.

Lemma nf_bind {S A B} (m : Logic.M S A) (k : A -> Logic.M S B) s : m s <> NoFuel -> (forall a s', m s = Ok (a, s') -> k a s' <> NoFuel) -> mbind m k s <> NoFuel.
Proof. unfold mbind. intros N K. destruct (m s) as [[a s']| |]; [apply K; reflexivity|discriminate|congruence]. Qed.
Lemma nf_get {B} r (k : cell -> SM B) s : (forall c, nth_error (x_heap s) r = Some c -> k c s <> NoFuel) -> mbind (get r) k s <> NoFuel.
Proof. unfold mbind, get. destruct (nth_error (x_heap s) r) as [c|]; [auto|discriminate]. Qed.
Lemma sub_ends pv q rs s : sub pv q rs s <> NoFuel.
Proof.
  unfold sub. destruct rs as [p|]; [|discriminate]. apply nf_get. intros c _. destruct c; try discriminate. destruct args as [|[a0|] [|[a1|] [|]]]; try discriminate.
  destruct q; try discriminate; apply nf_get; intros c _; destruct c; try discriminate; destruct (negb _); try discriminate;
    apply nf_get; intros cl _; apply nf_get; intros cr _; apply nf_bind;
    try (destruct cl, cr; discriminate); intros [[[n x] ca]|] s' _; try discriminate; destruct (existsb _ pv); try discriminate; destruct (is_constant ca); discriminate.
Qed.
Lemma map_args_ends f : forall l s, (forall x, In (Some x) l -> f x s <> NoFuel /\ forall o s', f x s = Ok (o, s') -> s' = s) -> map_args f l s <> NoFuel.
Proof.
  induction l as [|[x|] l IH]; intros s H; cbn [map_args]; [discriminate| |].
  - destruct (H x (or_introl eq_refl)) as (N & K). apply nf_bind; [exact N|]. intros o s' E. rewrite (K _ _ E). apply nf_bind; [|discriminate].
    apply IH. intros y J. apply H. right. exact J.
  - apply nf_bind; [|discriminate]. apply IH. intros y J. apply H. right. exact J.
Qed.

Lemma simplify_ends pv rk : forall f k r s, plain_heap (x_heap s) -> x_sub s = [] -> ranked rk (x_heap s) -> rk r < f -> simplify pv f k r s <> NoFuel.
Proof.
  induction f as [|f IH]; intros k r s P X R L; [lia|]. cbn [simplify]. apply nf_get. intros c E. assert (Fo := P _ _ E).
  assert (Ch : forall x, In x (below c) -> rk x < f) by (intros x J; assert (rk x < rk r) by (apply R; exists c; auto); lia).
  assert (Nd : forall k x, In x (below c) -> (do o <- simplify pv f k x ; match o with Some y => ret y | None => crash end) s <> NoFuel /\
    forall y s1, (do o <- simplify pv f k x ; match o with Some y => ret y | None => crash end) s = Ok (y, s1) -> y = x /\ s1 = s).
  { intros k0 x J. split.
    - apply nf_bind; [apply IH; auto|]. intros [y|] s' _; discriminate.
    - intros y s1 Hn. minv Hn. destruct (simplify_plain _ _ _ _ _ _ _ E0 P X) as [-> ->]. minv Hn. auto. }
  destruct k, c; try discriminate.
  - apply nf_bind.
    { destruct restriction as [x|]; [|discriminate]. apply nf_bind; [apply Nd; left; reflexivity|discriminate]. }
    intros rs' s1 E1. assert (K : rs' = restriction /\ s1 = s).
    { destruct restriction as [x|]; [|minv E1; auto]. minv E1. apply (proj2 (Nd _ x (or_introl eq_refl))) in E0. destruct E0 as [-> ->]. minv E1. auto. }
    destruct K as [-> ->]. apply nf_bind; [discriminate|]. intros u s1 E2. apply set_same in E2; [|exact E]. subst s1.
    destruct scope as [x|]; [|discriminate]. apply nf_bind; [apply sub_ends|]. intros b s1 E2. apply sub_plain in E2; [|exact P]. destruct E2 as [-> ->].
    apply nf_bind; [apply Nd, in_or_app; right; left; reflexivity|]. discriminate.
  - destruct (Nd RStatement l (or_introl eq_refl)) as (N1 & K1). apply nf_bind; [exact N1|]. intros y s1 E1. destruct (K1 _ _ E1) as [-> ->].
    apply nf_bind; [apply Nd; right; left; reflexivity|]. discriminate.
  - assert (A : forall x, In (Some x) args -> In x (below (CPredication p args))).
    { intros x J. right. apply in_flat_map. exists (Some x). split; [exact J|left; reflexivity]. }
    apply nf_bind.
    { apply map_args_ends. intros x J. split; [apply IH; auto|]. intros o s' K. apply (simplify_plain _ _ _ _ _ _ _ K P X). }
    intros args' s1 E1. apply map_plain in E1; [|intros x s0' o' s1' J -> Hx; exact (simplify_plain _ _ _ _ _ _ _ Hx P X)]. destruct E1 as [-> ->].
    apply nf_bind; [discriminate|]. intros u s1 E2. apply set_same in E2; [|exact E]. subst s1. apply nf_get. intros pc Ep. assert (Fp := P _ _ Ep).
    destruct pc; try discriminate; (apply nf_bind; [apply Nd; left; reflexivity|]; discriminate).
  - apply nf_bind; [discriminate|]. intros [a|] s1 _; discriminate.
  - destruct (Nd RPredicate l (or_introl eq_refl)) as (N1 & K1). apply nf_bind; [exact N1|]. intros y s1 E1. destruct (K1 _ _ E1) as [-> ->].
    apply nf_bind; [apply Nd; right; left; reflexivity|]. discriminate.
Qed.

(** ** Interpret *)

Lemma renumber_ends : forall l i h, renumber l i h <> NoFuel.
Proof.
  induction l as [|r l IH]; intros i h; cbn [renumber]; [discriminate|]. destruct (nth_error h r) as [[]|]; try apply IH.
  destruct def as [d|]; [|apply IH]. destruct (nth_error h d) as [[]|]; try discriminate. apply IH.
Qed.

Theorem first_order_ends U d : (forall n, In n d -> sentence_item n -> first_order U (o_letters diacritic) n = true) ->
  exists r, outcome U d r.
Proof.
  intros Fo. destruct (discourse_ends U (o_letters diacritic) d Fo) as (f0 & r0 & N & D).
  assert (K : exists fuel, interpret U (o_letters diacritic) fuel d <> NoFuel).
  { unfold interpret. destruct r0 as [[[x|] s]| |]; [|exists f0; rewrite D by lia; discriminate..|congruence].
    assert (D0 := D f0 f0 (le_n _) (le_n _)). apply discourse_closed in D0; [|exact Fo]. destruct D0 as [W _ Ss Or' _ F].
    destruct (wf_level _ W) as (rk & Lv). exists (f0 + S (rk x)). rewrite D by lia. cbn [bind]. set (fu := f0 + S (rk x)).
    assert (Lt : rk x < fu) by (unfold fu; lia). clearbody fu.
    unfold simplify_statement. assert (H := hoa_ends rk fu x None (SSt (s_heap s) []) Lv Lt).
    destruct (add_hoa fu x None (SSt (s_heap s) [])) as [[u s1]| |] eqn:A; cbn [post bind] in *; [|discriminate|contradiction].
    apply hoa_closed with (root := x) in A; [|split; assumption|discriminate]. destruct A as (C & _ & Sx). destruct H as [R Z]. cbn [fst snd x_heap x_sub] in *.
    assert (V := visited_total _ _ R fu x Lt). unfold pred_vars. destruct (visited (x_heap s1) fu x) as [l| |] eqn:Vl; cbn [bind]; [|discriminate|congruence].
    assert (Si := simplify_ends (flat_map (pred_var (x_heap s1)) l) rk fu RStatement x (SSt (x_heap s1) []) (w_fo _ (c_wf _ _ C)) eq_refl R Lt).
    destruct (simplify _ _ _ _ _) as [[o s2]| |] eqn:Sm; cbn [bind]; [|discriminate|congruence].
    apply simplify_plain in Sm; [|exact (w_fo _ (c_wf _ _ C))|reflexivity]. destruct Sm as [-> ->]. cbn [x_heap]. unfold sequence_var_nums. rewrite Vl. cbn [bind].
    assert (Rn := renumber_ends l 0 (x_heap s1)). destruct (renumber l 0 (x_heap s1)); cbn [bind]; [discriminate|discriminate|congruence]. }
  destruct K as (fuel & K). exists (interpret U (o_letters diacritic) fuel d). eapply outcome_intro; [reflexivity|exact K].
Qed.

(** ** String *)

Lemma nfr_bind {A B} (r : res A) (f : A -> res B) : r <> NoFuel -> (forall a, f a <> NoFuel) -> bind r f <> NoFuel.
Proof. destruct r; cbn; auto; discriminate. Qed.

Section Show.
Variables (h : heap) (rk : ref -> nat).
Hypothesis R : ranked rk h.
Lemma lp_ends : forall f x, rk x < f -> left_predication h f (Some x) <> NoFuel.
Proof.
  induction f as [|f IH]; intros x L; [lia|]. cbn [left_predication]. destruct (nth_error h x) as [[]|] eqn:E; try discriminate.
  apply IH. assert (rk l < rk x) by (apply R; eexists; split; [exact E|left; reflexivity]). lia.
Qed.
Lemma lpred_ends : forall f x, rk x < f -> left_pred h f x <> NoFuel.
Proof.
  induction f as [|f IH]; intros x L; [lia|]. cbn [left_pred]. destruct (nth_error h x) as [[]|] eqn:E; try discriminate.
  assert (rk l < rk x) by (apply R; eexists; split; [exact E|left; reflexivity]).
  assert (rk r < rk x) by (apply R; eexists; split; [exact E|right; left; reflexivity]).
  apply nfr_bind; [apply IH; lia|]. intros [n|]; [|discriminate]. destruct (String.eqb n "shi"); [apply IH; lia|discriminate].
Qed.
Lemma args_ends g : forall l, (forall x, In (Some x) l -> g x <> NoFuel) -> show_args g l <> NoFuel.
Proof.
  induction l as [|o l IH]; intros N; cbn [show_args]; [discriminate|]. apply nfr_bind; [destruct o; [apply N; left; reflexivity|discriminate]|].
  intros s. apply nfr_bind; [apply IH; intros; apply N; right; assumption|]. discriminate.
Qed.
Lemma opt_ends g o : (forall x, o = Some x -> g x <> NoFuel) -> show_opt g o <> NoFuel.
Proof. destruct o; cbn; [auto|discriminate]. Qed.
Lemma show_ends pretty names : forall f x, rk x < f -> show pretty names h f x <> NoFuel.
Proof.
  induction f as [|f IH]; intros r L; [lia|]. cbn [show]. destruct (nth_error h r) as [c|] eqn:E; [|discriminate].
  assert (Ch : forall x, In x (below c) -> show pretty names h f x <> NoFuel) by (intros x J; apply IH; assert (rk x < rk r) by (apply R; exists c; auto); lia).
  assert (Args : forall l, (forall x, In (Some x) l -> In x (below c)) -> show_args (show pretty names h f) l <> NoFuel) by (intros l H; apply args_ends; auto).
  assert (Opt : forall o, (forall x, o = Some x -> In x (below c)) -> show_opt (show pretty names h f) o <> NoFuel) by (intros o H; apply opt_ends; auto).
  destruct c; cbn [below] in *; try discriminate.
  - destruct restriction as [x|]; cbn [app] in *.
    + apply nfr_bind; [apply Ch; left; reflexivity|]. intros. apply nfr_bind; [|discriminate]. apply Opt. intros y ->. right. left. reflexivity.
    + apply nfr_bind; [|discriminate]. apply Opt. intros y ->. left. reflexivity.
  - destruct (nth_error h l); [|discriminate]. destruct (nth_error h r0); [|discriminate]. apply nfr_bind; [apply Ch; left; reflexivity|]. intros.
    apply nfr_bind; [apply Ch; right; left; reflexivity|]. discriminate.
  - assert (A : forall x, In (Some x) args -> In x (p :: flat_map (fun a => match a with Some x => [x] | None => [] end) args)).
    { intros x J. right. apply in_flat_map. exists (Some x). split; [exact J|left; reflexivity]. }
    assert (G : bind (show pretty names h f p) (fun n => bind (show_args (show pretty names h f) args) (fun a => Ok (n ++ "(" ++ a ++ ")")%string)) <> NoFuel).
    { apply nfr_bind; [apply Ch; left; reflexivity|]. intros. apply nfr_bind; [apply Args, A|]. discriminate. }
    destruct (nth_error h p) as [[]|]; try exact G. destruct args as [|x [|y [|]]]; try exact G. destruct (is_bin_op name).
    + apply nfr_bind; [apply Opt; intros z ->; apply A; left; reflexivity|]. intros. apply nfr_bind; [apply Opt; intros z ->; apply A; right; left; reflexivity|]. discriminate.
    + apply nfr_bind; [apply Args, A|]. discriminate.
  - apply nfr_bind; [|discriminate]. apply Args. intros x J. apply in_flat_map. exists (Some x). split; [exact J|left; reflexivity].
  - apply nfr_bind; [apply Ch; left; reflexivity|]. discriminate.
  - apply nfr_bind; [apply Ch; left; reflexivity|]. intros. apply nfr_bind; [apply Ch; right; left; reflexivity|]. discriminate.
  - apply nfr_bind; [apply Ch; left; reflexivity|]. discriminate.
Qed.
Variable f : nat.
Hypothesis B : forall x, rk x < f.
Lemma rune_ends U o : var_rune U h f o <> NoFuel.
Proof.
  unfold var_rune. destruct o as [d|]; [|discriminate]. destruct (nth_error h d) as [[]|]; try discriminate. apply nfr_bind.
  - destruct restriction as [x|]; [apply lp_ends, B|]. assert (b := B 0). destruct f; [lia|discriminate].
  - intros [p|]; [|discriminate]. apply nfr_bind; [apply lpred_ends, B|]. intros [name|]; [|discriminate]. destruct (is_bin_op name); discriminate.
Qed.
Lemma runes_ends U : forall l seen, var_runes U h f l seen <> NoFuel.
Proof.
  induction l as [|r l IH]; intros seen; cbn [var_runes]; [discriminate|]. destruct (nth_error h r) as [[]|]; try apply IH.
  destruct (existsb _ seen); [apply IH|]. apply nfr_bind; [apply rune_ends|]. intros; apply IH.
Qed.
Lemma assign_ends : forall l names, assign_names l names <> NoFuel.
Proof. induction l as [|[v s] l IH]; intros names; cbn [assign_names]; [discriminate|]. destruct (v <? length names); [apply IH|discriminate]. Qed.
Lemma print_ends U keys pretty r : print U keys pretty f (Some (r, h)) <> NoFuel.
Proof.
  unfold print. apply nfr_bind; [apply (visited_total _ _ R), B|]. intros l. apply nfr_bind; [apply runes_ends|]. intros seen. destruct (_ && _); [apply show_ends, B|].
  apply nfr_bind; [apply assign_ends|]. intros names. apply nfr_bind; [apply show_ends, B|]. discriminate.
Qed.
End Show.

Lemma bare_child h h' i x : bare h = bare h' -> child h i x -> child h' i x.
Proof.
  intros B (c & E & J). assert (X := bare_nth _ _ i B). rewrite E in X. cbn [option_map] in X. destruct (nth_error h' i) as [c'|] eqn:E'; [|discriminate].
  injection X as X. exists c'. split; [exact E'|]. destruct c, c'; cbn in X; try discriminate; injection X; intros; subst; exact J.
Qed.

(** A bound for ranks. *)
Lemma level_bound rk h : level rk h -> exists f, forall x, rk x < f.
Proof.
  intros [_ Z]. assert (K : forall n, exists f, forall x, x < n -> rk x < f).
  { induction n as [|n (f & IH)]; [exists 0; intros; lia|]. exists (f + S (rk n)). intros x L. destruct (Nat.eq_dec x n) as [->|]; [lia|]. assert (rk x < f) by (apply IH; lia). lia. }
  destruct (K (length h)) as (f & F). exists (S f). intros x. destruct (Nat.lt_ge_cases x (length h)) as [L|L]; [apply F in L; lia|rewrite Z by exact L; lia].
Qed.

Theorem first_order_prints U d t : (forall n, In n d -> sentence_item n -> first_order U (o_letters diacritic) n = true) -> outcome U d (Ok t) ->
  exists f0, forall keys pretty f, f0 <= f -> print U keys pretty f t <> NoFuel.
Proof.
  intros Fo O. destruct t as [[r h]|]; [|exists 0; discriminate]. destruct (first_order_closed _ _ _ _ O Fo) as (h0 & C & B).
  destruct (wf_level _ (c_wf _ _ C)) as (rk & Lv). destruct (level_bound _ _ Lv) as (f0 & F). exists f0. intros keys pretty f L. eapply print_ends.
  - intros i x K. apply (proj1 Lv). eapply bare_child; eassumption.
  - intros x. specialize (F x). lia.
Qed.

(** ** A parsed text *)

Lemma item_sentence n : sentence_item n -> is_sentence n = true.
Proof. intros [(a & b & c & ->)|(x & a & b & c & d & ->)]; reflexivity. Qed.

Section Text.
Variables (is_punct : N -> bool) (text : string) (p : Parser.parser) (lead : option node) (d : list node) (U : unicode).
Hypothesis R : Parser.reach is_punct text p.
Hypothesis E : fst (Parser.text_of is_punct p) = Ok (Parser.Got (Some (NText lead d))).
Hypothesis S : forall n, In n d -> is_sentence n = true -> well_sorted n = true /\ supported U n = true /\ first_order U (o_letters diacritic) n = true.
Theorem text_returns : exists t, outcome U d (Ok t) /\
  exists f0, forall keys pretty f, f0 <= f -> exists s, print U keys pretty f t = Ok s.
Proof.
  assert (S1 : forall n, In n d -> is_sentence n = true -> well_sorted n = true /\ supported U n = true) by (intros n I J; destruct (S n I J) as (A & B & _); auto).
  assert (Fo : forall n, In n d -> sentence_item n -> first_order U (o_letters diacritic) n = true) by (intros n I J; apply (S n I), item_sentence, J).
  destruct (first_order_ends U d Fo) as ([t|q|] & O).
  - exists t. split; [exact O|]. destruct (first_order_prints U d t Fo O) as (f0 & F). exists f0. intros keys pretty f L. specialize (F keys pretty f L).
    assert (P := LogicSafe.text_print_no_panic is_punct text p lead d U R E S1 t O keys pretty f). destruct (print U keys pretty f t) as [s|q|]; [eauto|destruct (P q eq_refl)|congruence].
  - destruct (LogicSafe.text_no_panic is_punct text p lead d U R E S1 q O).
  - destruct O as [N _]. congruence.
Qed.
End Text.
