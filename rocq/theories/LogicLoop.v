(** A text on which Interpret does not end. *)

From Coq Require Import String NArith List Bool Arith Lia.
From Verif Require Import Base PegSyntax Tone Ast AstSorts Parser Logic LogicWords LogicSpec Interp Simplify LogicFuel
  AstCases LogicApi LogicCases LogicSafe.
Import ListNotations.
Open Scope string_scope.
Open Scope list_scope.
Open Scope nat_scope.

(** ** Cycles *)

Definition closed (h : heap) : Prop := forall r c k, nth_error h r = Some c -> In k (below c) -> k < length h.

Lemma flat_nofuel {A B} (f : A -> res (list B)) l : (forall x p, In x l -> f x <> Panic p) -> (exists x, In x l /\ f x = NoFuel) ->
  flat_res f l = NoFuel.
Proof.
  induction l as [|y l IH]; intros P [x [I N]]; [contradiction|]. cbn [flat_res].
  destruct I as [->|I]; [rewrite N; reflexivity|].
  assert (Py := fun p => P y p (or_introl eq_refl)). destruct (f y) as [a|p|]; cbn; [|contradiction (Py p); reflexivity|reflexivity].
  rewrite IH; [reflexivity| |eauto]. intros z p Z. apply P. right. exact Z.
Qed.
Lemma visited_closed h : closed h -> forall f r, r < length h -> forall p, visited h f r <> Panic p.
Proof.
  intros C. induction f as [|f IH]; intros r L p; cbn [visited]; [discriminate|].
  destruct (nth_error h r) as [c|] eqn:E; [|apply nth_error_None in E; lia].
  specialize (fun k => C r c k E) as B.
  assert (F : forall l, (forall k, In k l -> k < length h) -> forall p, flat_res (visited h f) l <> Panic p).
  { induction l as [|x l IHl]; intros H q; cbn [flat_res]; [discriminate|].
    assert (X := IH x (H x (or_introl eq_refl))). destruct (visited h f x) as [a|q'|]; cbn; [|contradiction (X q'); reflexivity|discriminate].
    assert (Y := IHl (fun k K => H k (or_intror K))). destruct (flat_res (visited h f) l) as [b|q'|]; cbn; [discriminate|contradiction (Y q'); reflexivity|discriminate]. }
  specialize (F _ B). destruct (flat_res (visited h f) (below c)) as [a|q|]; cbn; [discriminate|contradiction (F q); reflexivity|discriminate].
Qed.
(** Every cell of [l] has a cell of [l] below it. *)
Lemma endless h l : closed h -> (forall r, In r l -> exists c k, nth_error h r = Some c /\ In k (below c) /\ In k l) ->
  forall f r, In r l -> visited h f r = NoFuel.
Proof.
  intros C H. induction f as [|f IH]; intros r I; cbn [visited]; [reflexivity|].
  destruct (H r I) as (c & k & E & K & L). rewrite E. rewrite flat_nofuel; [reflexivity| |eauto].
  intros x p X. apply visited_closed; [exact C|]. exact (C _ _ _ E X).
Qed.

Definition closedb (h : heap) : bool := forallb (fun c => forallb (fun k => k <? length h) (below c)) h.
Lemma closedb_ok h : closedb h = true -> closed h.
Proof.
  intros H r c k E K. unfold closedb in H. rewrite forallb_forall in H. specialize (H c (nth_error_In _ _ E)).
  rewrite forallb_forall in H. apply Nat.ltb_lt, H, K.
Qed.
Definition endlessb (h : heap) (l : list ref) : bool :=
  forallb (fun r => match nth_error h r with Some c => existsb (fun k => existsb (Nat.eqb k) l) (below c) | None => false end) l.
Lemma endlessb_ok h l : endlessb h l = true -> forall r, In r l -> exists c k, nth_error h r = Some c /\ In k (below c) /\ In k l.
Proof.
  intros H r I. unfold endlessb in H. rewrite forallb_forall in H. specialize (H r I). destruct (nth_error h r) as [c|]; [|discriminate].
  apply existsb_exists in H. destruct H as (k & K & H). apply existsb_exists in H. destruct H as (x & X & E). apply Nat.eqb_eq in E. subst x. eauto.
Qed.

(** ** Interpret up to the numbering of variables *)

Definition unnumbered_tree (U : unicode) (ol : list (N * N)) (fuel : nat) (d : list node) : res (option (option ref * heap)) :=
  bind (discourse U ol fuel fuel d st0) (fun p =>
  match p with
  | (None, _) => Ok None
  | (Some r, s) =>
      bind (add_hoa fuel r None (SSt (s_heap s) [])) (fun p =>
      let h1 := x_heap (snd p) in
      bind (pred_vars fuel h1 r) (fun pv =>
      bind (simplify pv fuel RStatement r (SSt h1 [])) (fun p => Ok (Some (fst p, x_heap (snd p))))))
  end).
Lemma interpret_steps U ol fuel d : interpret U ol fuel d =
  bind (unnumbered_tree U ol fuel d) (fun o =>
  match o with
  | None => Ok None
  | Some (Some r', h) => bind (sequence_var_nums fuel h r') (fun h2 => Ok (Some (r', h2)))
  | Some (None, _) => Panic PRuntime
  end).
Proof.
  unfold interpret, unnumbered_tree, simplify_statement. destruct (discourse U ol fuel fuel d st0) as [[[r|] s]| |]; cbn [bind]; try reflexivity.
  destruct (add_hoa fuel r None (SSt (s_heap s) [])) as [p| |]; cbn [bind]; try reflexivity.
  destruct (pred_vars fuel (x_heap (snd p)) r) as [pv| |]; cbn [bind]; try reflexivity.
  destruct (simplify pv fuel RStatement r (SSt (x_heap (snd p)) [])) as [[[r'|] s']| |]; cbn [bind fst snd]; try reflexivity.
  destruct (sequence_var_nums fuel (x_heap s') r'); reflexivity.
Qed.
Lemma le_unnumbered U ol f f' d : f <= f' -> le_res (unnumbered_tree U ol f d) (unnumbered_tree U ol f' d).
Proof.
  intros L. unfold unnumbered_tree. apply le_res_bind; [apply (le_discourse U ol ol (fun n => eq_refl)); assumption|].
  intros [[r|] s]; [|apply le_res_refl]. apply le_res_bind; [apply le_add_hoa, L|]. intros p.
  apply le_res_bind; [unfold pred_vars; apply le_res_bind; [apply le_visited, L|intros; apply le_res_refl]|]. intros pv.
  apply le_res_bind; [apply le_simplify, L|]. intros; apply le_res_refl.
Qed.

Lemma never_ends U ol fuel d r h l : unnumbered_tree U ol fuel d = Ok (Some (Some r, h)) ->
  closedb h = true -> endlessb h l = true -> In r l -> forall fuel', interpret U ol fuel' d = NoFuel.
Proof.
  intros E C L I fuel'. assert (V := endless h l (closedb_ok _ C) (endlessb_ok _ _ L) fuel' r I).
  assert (X : unnumbered_tree U ol fuel' d = NoFuel \/ unnumbered_tree U ol fuel' d = Ok (Some (Some r, h))).
  { destruct (Nat.le_ge_cases fuel fuel') as [Le|Le]; destruct (le_unnumbered U ol _ _ d Le) as [X|X]; [congruence|right; congruence|left; exact X|right; congruence]. }
  rewrite interpret_steps. destruct X as [->| ->]; cbn [bind]; [reflexivity|]. unfold sequence_var_nums. rewrite V. reflexivity.
Qed.

(** ** The text *)

Definition loop_tree (text : string) (fuel : nat) : option (option ref * heap) :=
  match discourse_of text with
  | Some d => match unnumbered_tree ascii_unicode (o_letters diacritic) fuel d with Ok o => o | _ => None end
  | None => None
  end.
Definition loop_ok (text : string) (fuel : nat) : bool :=
  match loop_tree text fuel with
  | Some (Some r, h) =>
      let l := filter (fun r => match visited h fuel r with NoFuel => true | _ => false end) (seq 0 (length h)) in
      closedb h && endlessb h l && existsb (Nat.eqb r) l
  | _ => false
  end.
Lemma loops_ok text fuel : text_ok text = true -> loop_ok text fuel = true -> exists d, parses text d /\
  (forall n, In n d -> is_sentence n = true -> well_sorted n = true /\ supported ascii_unicode n = true) /\
  forall r, ~ outcome ascii_unicode d r.
Proof.
  intros T K. destruct (text_ok_case _ T) as (lead & d & P & _ & S). exists d. split; [exists lead; exact P|]. split; [exact S|].
  assert (D : discourse_of text = Some d).
  { unfold text_ok in T. unfold discourse_of in *. destruct (parsed text) as [n|] eqn:Q; [|discriminate].
    apply parsed_ok in Q. rewrite P in Q. injection Q as <-. reflexivity. }
  assert (F : forall fuel, interpret ascii_unicode (o_letters diacritic) fuel d = NoFuel).
  { unfold loop_ok, loop_tree in K. rewrite D in K.
    destruct (unnumbered_tree ascii_unicode (o_letters diacritic) fuel d) as [[[[r|] h]|]| |] eqn:E; try discriminate.
    apply andb_true_iff in K. destruct K as [K I]. apply andb_true_iff in K. destruct K as [C L].
    apply existsb_exists in I. destruct I as (x & I & X). apply Nat.eqb_eq in X. subst x.
    exact (never_ends _ _ _ _ _ _ _ E C L I). }
  intros r [N [f H]]. apply N. rewrite <- (H f (le_n f)). apply F.
Qed.

(** The variable do is the content clause gi^ hoa/, about itself; the name mi swaps the
    arguments of its predicate, and simplifies them a second time. *)
Lemma loops : exists text d, parses text d /\
  (forall n, In n d -> is_sentence n = true -> well_sorted n = true /\ supported ascii_unicode n = true) /\
  forall r, ~ outcome ascii_unicode d r.
Proof. exists "mi? Hoaq? ke do/ jeiV gi^ hoa/ na hoa/". apply (loops_ok _ 50); vm_compute; reflexivity. Qed.
