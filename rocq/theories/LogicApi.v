(** The outcome of Interpret, without fuel; and the scopes of variables. *)

From Coq Require Import String NArith List Bool Arith Lia.
From Verif Require Import Base PegSyntax Tone Ast Logic LogicWords LogicSpec Interp Simplify LogicString LogicFuel SeqFacts TermFacts.
Import ListNotations.
Open Scope string_scope.
Open Scope list_scope.
Open Scope nat_scope.

(** Interpret of a text with the discourse [d] ends with [r]: with enough fuel that is the
    result. *)
Definition outcome (U : unicode) (d : list node) (r : res (option (ref * heap))) : Prop :=
  r <> NoFuel /\ exists fuel, forall fuel', fuel <= fuel' -> interpret U (o_letters diacritic) fuel' d = r.

Lemma outcome_intro U fuel d r : interpret U (o_letters diacritic) fuel d = r -> r <> NoFuel -> outcome U d r.
Proof.
  intros E N. split; [exact N|]. exists fuel. intros f L.
  destruct (le_interpret U (o_letters diacritic) (o_letters diacritic) (fun n => eq_refl) fuel f d L) as [X|X]; congruence.
Qed.
Lemma outcome_fun U d r r' : outcome U d r -> outcome U d r' -> r = r'.
Proof. intros [_ [f H]] [_ [f' H']]. rewrite <- (H (f + f')) by lia. apply H'. lia. Qed.

(** String writes [s]. *)
Definition prints (U : unicode) (t : option (ref * heap)) (s : string) : Prop :=
  exists fuel, forall fuel', fuel <= fuel' -> string_ U fuel' t = Ok s.
Lemma prints_intro U fuel t s : string_ U fuel t = Ok s -> prints U t s.
Proof.
  intros E. exists fuel. intros f L. destruct (le_print U (fun k => k) false fuel f t L) as [X|X]; unfold string_ in *; congruence.
Qed.

(** The nodes of a tree in the order of Visit. *)
Definition nodes (t : ref * heap) (l : list ref) : Prop := exists fuel, visited (snd t) fuel (fst t) = Ok l.

(** [x] is below [r], on a path through the bindings [sc]. *)
Inductive occurs (h : heap) : ref -> list ref -> ref -> Prop :=
  | OHere r : occurs h r [] r
  | OBelow r c k sc x : nth_error h r = Some c -> In k (below c) -> occurs h k sc x ->
      occurs h r (match c with CBinding _ _ _ _ _ => r :: sc | _ => sc end) x.

(** Every variable that refers to a binding is inside it. *)
Definition scoped (t : ref * heap) : Prop :=
  forall sc x d, occurs (snd t) (fst t) sc x -> refers (snd t) x d -> In d sc.

(** A variable that is not inside its binding, if there is one. *)
Fixpoint first_some {A B} (f : A -> option B) (l : list A) : option B :=
  match l with [] => None | x :: l' => match f x with Some y => Some y | None => first_some f l' end end.
Fixpoint loose (h : heap) (fuel : nat) (sc : list ref) (r : ref) : option (list ref * ref * ref) :=
  match fuel with
  | O => None
  | S f =>
      match nth_error h r with
      | None => None
      | Some (CVariable _ (Some d) _) => if existsb (Nat.eqb d) sc then None else Some ([], r, d)
      | Some c =>
          let b := match c with CBinding _ _ _ _ _ => [r] | _ => [] end in
          match first_some (loose h f (b ++ sc)) (below c) with
          | Some (p, x, d) => Some (b ++ p, x, d)
          | None => None
          end
      end
  end.
Lemma first_some_In {A B} (f : A -> option B) l y : first_some f l = Some y -> exists x, In x l /\ f x = Some y.
Proof.
  induction l as [|x l IH]; cbn; [discriminate|]. destruct (f x) eqn:E; [intros H; injection H as <-; eauto|].
  intros H. destruct (IH H) as (z & I & Z). eauto.
Qed.
Lemma loose_sound h : forall fuel sc r p x d, loose h fuel sc r = Some (p, x, d) ->
  occurs h r p x /\ refers h x d /\ ~ In d sc /\ ~ In d p.
Proof.
  induction fuel as [|f IH]; intros sc r p x d E; cbn [loose] in E; [discriminate|].
  destruct (nth_error h r) as [c|] eqn:H; [|discriminate].
  assert (G : match first_some (loose h f ((match c with CBinding _ _ _ _ _ => [r] | _ => [] end) ++ sc)) (below c) with
              | Some (p, x, d) => Some ((match c with CBinding _ _ _ _ _ => [r] | _ => [] end) ++ p, x, d)
              | None => None end = Some (p, x, d) -> occurs h r p x /\ refers h x d /\ ~ In d sc /\ ~ In d p).
  { clear E. intros E. destruct (first_some _ _) as [[[p' x'] d']|] eqn:F; [|discriminate]. injection E as <- <- <-.
    apply first_some_In in F. destruct F as (k & K & F). destruct (IH _ _ _ _ _ F) as (O & R & N & N').
    assert (O' := OBelow _ _ _ _ _ _ H K O). rewrite in_app_iff in N.
    split; [destruct c; exact O'|]. split; [exact R|]. split; [tauto|]. rewrite in_app_iff. tauto. }
  destruct c; try (apply G, E). destruct def as [d'|]; [|apply G, E].
  destruct (existsb (Nat.eqb d') sc) eqn:X; [discriminate|]. injection E as <- <- <-. split; [constructor|].
  split; [exists n, focus; exact H|]. split; [|cbn; tauto]. intros I.
  assert (existsb (Nat.eqb d') sc = true) by (apply existsb_exists; exists d'; split; [exact I|apply Nat.eqb_refl]). congruence.
Qed.
Lemma loose_not_scoped h fuel r v : loose h fuel [] r = Some v -> ~ scoped (r, h).
Proof.
  destruct v as [[p x] d]. intros E S. destruct (loose_sound _ _ _ _ _ _ _ E) as (O & R & _ & N). exact (N (S _ _ _ O R)).
Qed.

(** ** Numbers *)
Lemma visited_bare h h' : bare h = bare h' -> forall fuel r, visited h fuel r = visited h' fuel r.
Proof.
  intros B. induction fuel as [|f IH]; intros r; cbn [visited]; [reflexivity|].
  assert (E : option_map unnumbered (nth_error h r) = option_map unnumbered (nth_error h' r)).
  { rewrite <- !nth_error_map. unfold bare in B. now rewrite B. }
  assert (F : forall c c', unnumbered c = unnumbered c' -> below c = below c').
  { intros c c' X. destruct c, c'; cbn in X; try discriminate; injection X; intros; subst; reflexivity. }
  destruct (nth_error h r) as [c|], (nth_error h' r) as [c'|]; cbn in E; try discriminate; [|reflexivity].
  injection E as E. rewrite (F _ _ E). f_equal. induction (below c') as [|k l IHl]; cbn; [reflexivity|]. now rewrite IH, IHl.
Qed.

Lemma nodes_fun t l l' : nodes t l -> nodes t l' -> l = l'.
Proof.
  intros [f E] [f' E']. destruct (Nat.le_ge_cases f f') as [L|L].
  - destruct (le_visited (snd t) f f' (fst t) L) as [X|X]; congruence.
  - destruct (le_visited (snd t) f' f (fst t) L) as [X|X]; congruence.
Qed.

Lemma interpret_numbered U fuel d r h : interpret U (o_letters diacritic) fuel d = Ok (Some (r, h)) ->
  exists h0 l, visited h fuel r = Ok l /\ bare h = bare h0 /\ visited h0 fuel r = Ok l /\ renumber l 0 h0 = Ok h.
Proof.
  unfold interpret. destruct (discourse _ _ _ _ _ _) as [[[x|] s]| |]; cbn [bind]; try discriminate.
  unfold simplify_statement. destruct (add_hoa _ _ _ _) as [[y s1]| |]; cbn [bind]; try discriminate.
  destruct (pred_vars _ _ _) as [pv| |]; cbn [bind]; try discriminate.
  destruct (simplify _ _ _ _ _) as [[[z|] s2]| |]; cbn [bind]; try discriminate.
  destruct (sequence_var_nums _ _ _) as [h2| |] eqn:E; cbn [bind]; try discriminate. intros H. injection H as <- <-.
  unfold sequence_var_nums in E. destruct (visited (x_heap s2) fuel z) as [l| |] eqn:V; cbn [bind] in E; try discriminate.
  exists (x_heap s2), l. assert (B := renumber_bare _ _ _ _ E). split; [|auto]. rewrite (visited_bare _ _ B). exact V.
Qed.

Theorem outcome_nodes U d t : outcome U d (Ok (Some t)) -> exists l, nodes t l /\ In (fst t) l.
Proof.
  destruct t as [r h]. intros [_ [f O]]. specialize (O f (le_n _)). destruct (interpret_numbered _ _ _ _ _ O) as (h0 & l & V & _).
  exists l. split; [exists f; exact V|]. destruct f; cbn [visited] in V; [discriminate|]. cbn [fst].
  destruct (nth_error h r); [|discriminate]. destruct (flat_res _ _); cbn in V; try discriminate. injection V as <-. left. reflexivity.
Qed.

(** The numbers of the tree that Interpret returns. *)
Theorem outcome_numbers U d t l : outcome U d (Ok (Some t)) -> nodes t l -> NoDup (filter (introduces (snd t)) l) ->
  (forall k x, nth_error (filter (introduces (snd t)) l) k = Some x -> number (snd t) x = Some k) /\
  (forall x b, In x l -> refers (snd t) x b -> before l b x -> introduces (snd t) b = true ->
     number (snd t) x = number (snd t) b).
Proof.
  destruct t as [r h]. intros [_ [f O]] N ND. specialize (O f (le_n _)). cbn [snd] in *.
  destruct (interpret_numbered _ _ _ _ _ O) as (h0 & l' & V & B & V0 & E).
  rewrite <- (nodes_fun (r, h) _ _ (ex_intro _ f V) N) in *. rewrite (filter_bare _ _ _ B) in *.
  assert (SQ : sequence_var_nums f h0 r = Ok h) by (unfold sequence_var_nums; rewrite V0; exact E).
  destruct (sequence_spec _ _ _ _ _ V0 SQ ND) as (_ & Q1 & Q2). split; [exact Q1|].
  intros x b I R Bf Ib. apply Q2; auto; [|now rewrite <- (bare_introduces _ _ _ B)]. exact (bare_refers _ _ _ _ B R).
Qed.

(** Interpret returns nil only if there is no sentence. *)
Theorem outcome_nil U d o : outcome U d (Ok o) -> (o = None <-> ~ has_sentence d).
Proof. intros [_ [f O]]. eapply interpret_nil, O, le_n. Qed.
Theorem outcome_fragments U d : (forall n, In n d -> is_fragment n = true) -> outcome U d (Ok None).
Proof. intros F. apply (outcome_intro U 0); [apply interpret_fragments, F|discriminate]. Qed.
