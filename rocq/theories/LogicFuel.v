(** The interpreter with more fuel gives the same result, unless it ran out of fuel; and it
    depends on the list of o-letters only through [is_variable]. *)

From Coq Require Import String NArith List Bool Arith Lia.
From Verif Require Import Base Ast AstSorts Logic LogicWords Interp Simplify LogicString.
Import ListNotations.
Open Scope string_scope.
Open Scope list_scope.
Open Scope nat_scope.

(** [r'] is [r] unless [r] is out of fuel. *)
Definition le_res {A} (r r' : res A) : Prop := r = NoFuel \/ r = r'.
Definition le_m {S A} (m m' : Logic.M S A) : Prop := forall s, le_res (m s) (m' s).

Lemma le_res_refl {A} (r : res A) : le_res r r.
Proof. right; reflexivity. Qed.
Lemma le_m_refl {S A} (m : Logic.M S A) : le_m m m.
Proof. intros s; apply le_res_refl. Qed.
Lemma le_res_bind {A B} (r r' : res A) (f f' : A -> res B) :
  le_res r r' -> (forall a, le_res (f a) (f' a)) -> le_res (bind r f) (bind r' f').
Proof. intros [->| ->] H; [left; reflexivity|]. destruct r'; cbn; [apply H|right; reflexivity|left; reflexivity]. Qed.
Lemma le_m_bind {S A B} (m m' : Logic.M S A) (f f' : A -> Logic.M S B) :
  le_m m m' -> (forall a, le_m (f a) (f' a)) -> le_m (mbind m f) (mbind m' f').
Proof.
  intros H G s. unfold mbind. destruct (H s) as [->| ->]; [left; reflexivity|].
  destruct (m' s) as [[a s']|p|]; [apply G|right; reflexivity|left; reflexivity].
Qed.
Lemma le_m_fuel {S A} (m : Logic.M S A) : le_m out_of_fuel m.
Proof. intros s; left; reflexivity. Qed.
Lemma le_res_fuel {A} (r : res A) : le_res NoFuel r.
Proof. left; reflexivity. Qed.

Lemma le_flat {A B} (f f' : A -> res (list B)) l : (forall a, le_res (f a) (f' a)) -> le_res (flat_res f l) (flat_res f' l).
Proof.
  intros H. induction l as [|x l IH]; cbn; [apply le_res_refl|].
  apply le_res_bind; [apply H|]. intros a. apply le_res_bind; [exact IH|]. intros b. apply le_res_refl.
Qed.
Lemma le_visited h : forall f f' r, f <= f' -> le_res (visited h f r) (visited h f' r).
Proof.
  induction f as [|f IH]; intros f' r L; [apply le_res_fuel|]. destruct f' as [|f']; [lia|]. cbn.
  destruct (nth_error h r); [|apply le_res_refl]. apply le_res_bind; [|intros; apply le_res_refl].
  apply le_flat. intros a. apply IH. lia.
Qed.

Section Interp.
Variables (U : unicode) (ol ol' : list (N * N)) (vf vf' : nat).
Hypothesis V : vf <= vf'.
Hypothesis O : forall n, is_variable U ol n = is_variable U ol' n.

Lemma le_bind_scope_fuel : forall f f' b s, f <= f' -> le_m (bind_scope_fuel f b s) (bind_scope_fuel f' b s).
Proof.
  induction f as [|f IH]; intros f' b s L; [apply le_m_fuel|]. destruct f' as [|f']; [lia|]. cbn.
  apply le_m_bind; [apply le_m_refl|]. intros c. destruct (b_scope c); [|apply le_m_refl].
  apply le_m_bind; [apply IH; lia|]. intros; apply le_m_refl.
Qed.
Lemma le_bind_scope b s : le_m (bind_scope vf b s) (bind_scope vf' b s).
Proof. destruct b; [apply le_bind_scope_fuel, V|apply le_m_refl]. Qed.
Lemma le_free r : le_m (has_free_vars vf r) (has_free_vars vf' r).
Proof. intros s. apply le_res_bind; [apply le_visited, V|]. intros; apply le_res_refl. Qed.
Lemma le_clear scope hi : le_m (clear_hi_free_var_defs vf scope hi) (clear_hi_free_var_defs vf' scope hi).
Proof. intros s. apply le_res_bind; [apply le_visited, V|]. intros; apply le_res_refl. Qed.
Lemma le_his : forall his scope s, le_m (bind_his vf scope his s) (bind_his vf' scope his s).
Proof.
  induction his as [|hi l IH]; intros scope s; cbn [bind_his]; cbv zeta; [apply le_m_refl|].
  apply le_m_bind; [apply le_clear|]. intros _. apply le_m_bind; [apply le_bind_scope|]. intros a. apply IH.
Qed.
Lemma le_subordinate f f' : le_m f f' -> le_m (subordinate vf f) (subordinate vf' f').
Proof.
  intros H. unfold subordinate. do 2 (apply le_m_bind; [apply le_m_refl|]; intros ?).
  apply le_m_bind; [exact H|]. intros ?. do 2 (apply le_m_bind; [apply le_m_refl|]; intros ?).
  apply le_m_bind; [apply le_his|]. intros; apply le_m_refl.
Qed.

Variables self self' : forall A, call A -> Interp.M A.
Hypothesis S : forall A c, le_m (self A c) (self' A c).

Lemma le_with_vars {A} (m m' : Interp.M A) : le_m m m' -> le_m (with_vars m) (with_vars m').
Proof.
  intros H. apply le_m_bind; [apply le_m_refl|]. intros vs. apply le_m_bind; [exact H|]. intros; apply le_m_refl.
Qed.

Ltac le := repeat first
  [ apply S | apply le_bind_scope | apply le_free | apply le_m_refl
  | apply le_with_vars
  | apply le_m_bind; [|intros ?]
  | match goal with
    | |- le_m (match ?x with _ => _ end) _ => destruct x
    | |- le_m (if ?x then _ else _) _ => destruct x
    end ].

Lemma le_predication p a : le_m (predication self p a) (predication self' p a).
Proof. unfold predication. le. Qed.
Lemma le_make p l : le_m (make_predication self p l) (make_predication self' p l).
Proof. apply le_predication. Qed.
Lemma le_case {A} n u (one one' : option ref -> ref -> Interp.M A) (two two' : word -> node -> node -> Interp.M A) :
  (forall b a, le_m (one b a) (one' b a)) -> (forall w l r, le_m (two w l r) (two' w l r)) ->
  le_m (argument_case U self n u one two) (argument_case U self' n u one' two').
Proof. intros H G. unfold argument_case. destruct n; le; auto; destruct kind; le; auto. Qed.

Lemma le_body A (c : call A) : le_m (body U ol vf self c) (body U ol' vf' self' c).
Proof.
  destruct c; cbn [body].
  - unfold do_sentence. le.
  - apply le_subordinate, S.
  - unfold do_statement. le.
  - unfold do_predicate. destruct n; rewrite <- ?O; le; unfold po_predicate; le.
  - unfold po_argument. apply le_with_vars, le_case; intros; le.
  - unfold prenex_statement. apply le_with_vars. destruct terms as [|t rest]; [le|].
    destruct t; le. all: apply le_case; intros; le.
  - unfold do_preposition. le.
  - unfold pred_preposition. apply le_with_vars, le_case; intros; le.
  - unfold do_adverb. le.
  - unfold do_roi. le.
  - unfold roi_left. apply le_case; intros; le.
  - unfold roi_right. apply le_case; intros; le.
  - unfold predicate_argument. rewrite <- O. apply le_m_bind; [le|]. intros seen. destruct seen; [le|].
    destruct (is_variable U ol p); [unfold var_argument; le|]. destruct (is_hoa U p); [unfold hoa_argument; le|].
    le.
  - unfold relative_clause. le.
Qed.
End Interp.

Lemma le_run U ol ol' (O : forall n, is_variable U ol n = is_variable U ol' n) : forall f f' vf vf' A (c : call A),
  f <= f' -> vf <= vf' -> le_m (run U ol vf f A c) (run U ol' vf' f' A c).
Proof.
  induction f as [|f IH]; intros f' vf vf' A c L V; [apply le_m_fuel|]. destruct f' as [|f']; [lia|].
  cbn [run]. apply le_body; [exact V|exact O|]. intros B k. apply IH; [lia|exact V].
Qed.

Lemma le_items U ol ol' (O : forall n, is_variable U ol n = is_variable U ol' n) f f' vf vf' (L : f <= f') (V : vf <= vf') :
  forall d o, le_m (all_items U ol vf f d o) (all_items U ol' vf' f' d o).
Proof.
  induction d as [|n d IH]; intros o; cbn [all_items]; [apply le_m_refl|].
  destruct (is_fragment n); [apply IH|]. destruct (is_sentence n); [|apply le_m_refl].
  apply le_m_bind; [apply le_run; assumption|]. intros x. destruct o; [|apply IH].
  apply le_m_bind; [apply le_m_refl|]. intros z. apply IH.
Qed.
Lemma le_bind_all vf vf' (V : vf <= vf') : forall l o, le_m (bind_all vf l o) (bind_all vf' l o).
Proof.
  induction l as [|b l IH]; intros [s|]; cbn [bind_all]; try apply le_m_refl.
  apply le_m_bind; [apply le_bind_scope, V|]. intros x. apply IH.
Qed.
Lemma le_discourse U ol ol' (O : forall n, is_variable U ol n = is_variable U ol' n) f f' vf vf' d :
  f <= f' -> vf <= vf' -> le_m (discourse U ol vf f d) (discourse U ol' vf' f' d).
Proof.
  intros L V. apply le_m_bind; [apply le_items; assumption|]. intros o.
  apply le_m_bind; [apply le_m_refl|]. intros the. apply le_bind_all, V.
Qed.

(** simplify *)
Lemma le_used f f' args : (forall a, le_m (f a) (f' a)) -> forall u, le_m (used_args f args u) (used_args f' args u).
Proof.
  intros H. induction args as [|[a|] l IH]; intros u; cbn; [apply le_m_refl| |apply IH].
  apply le_m_bind; [apply H|]. intros v. apply IH.
Qed.
Ltac le2 IH := repeat first
  [ apply IH; lia | apply le_m_refl | apply le_used; intros ?
  | apply le_m_bind; [|intros ?]
  | match goal with
    | |- le_m (match ?x with _ => _ end) _ => destruct x
    | |- le_m (if ?x then _ else _) _ => destruct x
    end ].
Lemma le_add_hoa : forall f f' r b, f <= f' -> le_m (add_hoa f r b) (add_hoa f' r b).
Proof.
  induction f as [|f IH]; intros f' r b L; [apply le_m_fuel|]. destruct f' as [|f']; [lia|]. cbn [add_hoa].
  apply le_m_bind; [apply le_m_refl|]. intros c. destruct c; le2 IH.
Qed.
Lemma le_map_args f f' : (forall a, le_m (f a) (f' a)) -> forall l, le_m (map_args f l) (map_args f' l).
Proof.
  intros H. induction l as [|[a|] l IH]; cbn; [apply le_m_refl| |].
  - apply le_m_bind; [apply H|]. intros v. apply le_m_bind; [exact IH|]. intros; apply le_m_refl.
  - apply le_m_bind; [exact IH|]. intros; apply le_m_refl.
Qed.
Lemma le_flat_args f f' : (forall a, le_m (f a) (f' a)) -> forall l, le_m (flat_args f l) (flat_args f' l).
Proof.
  intros H. induction l as [|[a|] l IH]; cbn; [apply le_m_refl| |exact IH].
  apply le_m_bind; [apply H|]. intros v. apply le_m_bind; [apply le_m_refl|]. intros xs.
  apply le_m_bind; [exact IH|]. intros; apply le_m_refl.
Qed.
Lemma le_lambdas h : forall f f' r, f <= f' -> le_res (lambdas f h r) (lambdas f' h r).
Proof.
  induction f as [|f IH]; intros f' r L; [apply le_res_fuel|]. destruct f' as [|f']; [lia|]. cbn [lambdas].
  destruct (nth_error h r) as [[[] ? ? [?|] [s|]| | | | | | | | |]|]; try apply le_res_refl.
  apply le_res_bind; [apply IH; lia|]. intros; apply le_res_refl.
Qed.
Lemma le_simplify pv : forall f f' k r, f <= f' -> le_m (simplify pv f k r) (simplify pv f' k r).
Proof.
  induction f as [|f IH]; intros f' k r L; [apply le_m_fuel|]. destruct f' as [|f']; [lia|].
  assert (N : forall k x, le_m (do o <- simplify pv f k x ; match o with Some y => ret y | None => crash end)
                               (do o <- simplify pv f' k x ; match o with Some y => ret y | None => crash end)).
  { intros. apply le_m_bind; [apply IH; lia|]. intros; apply le_m_refl. }
  assert (La : forall stmt, le_m (fun s => bind (lambdas (S f) (x_heap s) stmt) (fun n => Ok (n, s)))
                                 (fun s => bind (lambdas (S f') (x_heap s) stmt) (fun n => Ok (n, s)))).
  { intros stmt s. apply le_res_bind; [apply le_lambdas; lia|]. intros; apply le_res_refl. }
  cbn [simplify]. cbv zeta. apply le_m_bind; [apply le_m_refl|]. intros c.
  destruct k, c; repeat first
  [ apply N | apply IH; lia | apply La | apply le_m_refl | apply le_map_args; intros ? | apply le_flat_args; intros ?
  | apply le_m_bind; [|intros ?]
  | match goal with
    | |- le_m (match ?x with _ => _ end) _ => destruct x
    | |- le_m (if ?x then _ else _) _ => destruct x
    end ].
Qed.
Lemma le_simplify_statement f f' r h : f <= f' -> le_res (simplify_statement f r h) (simplify_statement f' r h).
Proof.
  intros L. unfold simplify_statement. apply le_res_bind; [apply le_add_hoa, L|]. intros p. cbv zeta.
  apply le_res_bind; [unfold pred_vars; apply le_res_bind; [apply le_visited, L|intros; apply le_res_refl]|]. intros pv.
  apply le_res_bind; [apply le_simplify, L|]. intros [[r'|] s]; [|apply le_res_refl].
  apply le_res_bind; [|intros; apply le_res_refl]. unfold sequence_var_nums. apply le_res_bind; [apply le_visited, L|].
  intros; apply le_res_refl.
Qed.

Theorem le_interpret U ol ol' (O : forall n, is_variable U ol n = is_variable U ol' n) f f' d :
  f <= f' -> le_res (interpret U ol f d) (interpret U ol' f' d).
Proof.
  intros L. unfold interpret. apply le_res_bind; [apply le_discourse; assumption|]. intros [[r|] s]; [|apply le_res_refl].
  apply le_res_bind; [apply le_simplify_statement, L|]. intros; apply le_res_refl.
Qed.

(** Printing *)
Lemma le_left_predication h : forall f f' o, f <= f' -> le_res (left_predication h f o) (left_predication h f' o).
Proof.
  induction f as [|f IH]; intros f' o L; [apply le_res_fuel|]. destruct f' as [|f']; [lia|]. cbn.
  destruct o as [r|]; [|apply le_res_refl]. destruct (nth_error h r) as [[]|]; try apply le_res_refl. apply IH. lia.
Qed.
Lemma le_left_pred h : forall f f' p, f <= f' -> le_res (left_pred h f p) (left_pred h f' p).
Proof.
  induction f as [|f IH]; intros f' p L; [apply le_res_fuel|]. destruct f' as [|f']; [lia|]. cbn.
  destruct (nth_error h p) as [[]|]; try apply le_res_refl. apply le_res_bind; [apply IH; lia|].
  intros [nm|]; [|apply le_res_refl]. destruct (String.eqb nm "shi"); [apply IH; lia|apply le_res_refl].
Qed.
Lemma le_var_rune U h f f' o : f <= f' -> le_res (var_rune U h f o) (var_rune U h f' o).
Proof.
  intros L. unfold var_rune. destruct o as [d|]; [|apply le_res_refl]. destruct (nth_error h d) as [[]|]; try apply le_res_refl.
  apply le_res_bind; [apply le_left_predication, L|]. intros [p|]; [|apply le_res_refl].
  apply le_res_bind; [apply le_left_pred, L|]. intros; apply le_res_refl.
Qed.
Lemma le_var_runes U h f f' (L : f <= f') : forall l seen, le_res (var_runes U h f l seen) (var_runes U h f' l seen).
Proof.
  induction l as [|r l IH]; intros seen; cbn; [apply le_res_refl|].
  destruct (nth_error h r) as [[]|]; try apply IH. destruct (existsb _ seen); [apply IH|].
  apply le_res_bind; [apply le_var_rune, L|]. intros x. apply IH.
Qed.
Lemma le_show_args f f' : (forall a, le_res (f a) (f' a)) -> forall l, le_res (show_args f l) (show_args f' l).
Proof.
  intros H. induction l as [|a l IH]; cbn; [apply le_res_refl|]. apply le_res_bind; [destruct a; [apply H|apply le_res_refl]|].
  intros s. apply le_res_bind; [exact IH|]. intros; apply le_res_refl.
Qed.
Lemma le_show pretty names h : forall f f' r, f <= f' -> le_res (show pretty names h f r) (show pretty names h f' r).
Proof.
  induction f as [|f IH]; intros f' r L; [apply le_res_fuel|]. destruct f' as [|f']; [lia|]. cbn [show].
  destruct (nth_error h r) as [c|]; [|apply le_res_refl].
  assert (So : forall o, le_res (show_opt (show pretty names h f) o) (show_opt (show pretty names h f') o)).
  { intros [o|]; [apply IH; lia|apply le_res_refl]. }
  destruct c; repeat first
  [ apply So | apply IH; lia | apply le_res_refl | apply le_show_args; intros ?
  | apply le_res_bind; [|intros ?]
  | match goal with
    | |- le_res (match ?x with _ => _ end) _ => destruct x
    | |- le_res (if ?x then _ else _) _ => destruct x
    end ].
Qed.
Lemma le_print U keys pretty f f' t : f <= f' -> le_res (print U keys pretty f t) (print U keys pretty f' t).
Proof.
  intros L. unfold print. destruct t as [[r h]|]; [|apply le_res_refl].
  apply le_res_bind; [apply le_visited, L|]. intros l. apply le_res_bind; [apply le_var_runes, L|]. intros seen.
  destruct (_ && _); [apply le_show, L|]. apply le_res_bind; [apply le_res_refl|]. intros names.
  apply le_res_bind; [apply le_show, L|]. intros; apply le_res_refl.
Qed.
