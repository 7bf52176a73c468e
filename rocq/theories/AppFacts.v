(** Facts about the server and the bot. *)

From Coq Require Import String Ascii NArith List Bool Arith Lia.
From Verif Require Import Base Utf8 Utf8Facts PegSyntax Peg Tone Ast AstSorts Parser ParserFacts ParserSpec ApiFacts SortApi Visit VisitSpec VisitFacts Braces
  Logic LogicWords LogicSpec Interp Simplify LogicString OrderFacts LogicFuel LogicApi AstCases LogicCases SafeBase SimplifySafe LogicSafe LogicLoop App AppSpec.
Import ListNotations.
Open Scope string_scope.
Open Scope list_scope.
Open Scope nat_scope.

Lemma app_assoc_s (a b c : string) : ((a ++ b) ++ c = a ++ b ++ c)%string.
Proof. induction a as [|x a IH]; cbn; [reflexivity|now rewrite IH]. Qed.
Lemma contains_refl s : contains s s.
Proof. exists "", "". cbn. induction s as [|x s IH]; cbn; [reflexivity|now rewrite <- IH]. Qed.
Lemma contains_l s t u : contains s t -> contains s (t ++ u)%string.
Proof. intros (a & b & ->). exists a, (b ++ u)%string. now rewrite !app_assoc_s. Qed.
Lemma contains_r s t u : contains s t -> contains s (u ++ t)%string.
Proof. intros (a & b & ->). exists (u ++ a)%string, b. now rewrite !app_assoc_s. Qed.

Lemma contains_c s t c : contains s t -> contains s (String c t).
Proof. exact (contains_r s t (String c "")). Qed.

(** ** Panics of String are run-time errors *)

Definition quiet {A} (r : res A) : Prop := match r with Panic (PString _) => False | _ => True end.
Lemma quiet_bind {A B} (r : res A) (f : A -> res B) : quiet r -> (forall a, quiet (f a)) -> quiet (bind r f).
Proof. destruct r as [|[]|]; cbn; auto. Qed.
Ltac quiet := repeat first [apply quiet_bind; [|intros] | exact Logic.I | match goal with |- quiet (match ?x with _ => _ end) => destruct x end].

Lemma flat_quiet {A B} (f : A -> res (list B)) l : (forall x, quiet (f x)) -> quiet (flat_res f l).
Proof. intros H. induction l; cbn; [exact Logic.I|]. apply quiet_bind; [apply H|]. intros. apply quiet_bind; [assumption|]. intros; exact Logic.I. Qed.
Lemma visited_quiet h : forall f r, quiet (visited h f r).
Proof. induction f as [|f IH]; intros r; cbn [visited]; [exact Logic.I|]. destruct (nth_error h r); [|exact Logic.I]. apply quiet_bind; [apply flat_quiet, IH|]. intros; exact Logic.I. Qed.
Lemma calm_quiet {A} (r : res A) : calm r -> quiet r.
Proof. destruct r as [|[]|]; cbn; auto. Qed.
Lemma var_runes_quiet U h f : forall l seen, quiet (var_runes U h f l seen).
Proof.
  induction l as [|r l IH]; intros seen; cbn [var_runes]; [exact Logic.I|]. destruct (nth_error h r) as [[]|]; try apply IH.
  destruct (existsb _ seen); [apply IH|]. apply quiet_bind; [|intros; apply IH]. destruct def as [d|]; cbn [var_rune]; [|exact Logic.I].
  destruct (nth_error h d) as [[]|]; try exact Logic.I. apply quiet_bind; [apply calm_quiet, left_predication_calm|]. intros [p|]; [|exact Logic.I].
  apply quiet_bind; [apply calm_quiet, left_pred_calm|]. intros [n'|]; [|exact Logic.I]. destruct (is_bin_op n'); exact Logic.I.
Qed.
Lemma assign_quiet l : forall names, quiet (assign_names l names).
Proof. induction l as [|[v s] l IH]; intros names; cbn [assign_names]; [exact Logic.I|]. destruct (v <? length names); [apply IH|exact Logic.I]. Qed.
Lemma show_args_quiet (f : ref -> res string) l : (forall x, quiet (f x)) -> quiet (show_args f l).
Proof. intros H. induction l as [|[x|] l IH]; cbn [show_args]; [exact Logic.I| |]; (apply quiet_bind; [first [apply H|exact Logic.I]|]; intros; apply quiet_bind; [exact IH|]; intros; exact Logic.I). Qed.
Lemma show_quiet pretty names h : forall f r, quiet (show pretty names h f r).
Proof.
  induction f as [|f IH]; intros r; cbn [show]; [exact Logic.I|].
  assert (O : forall o, quiet (show_opt (show pretty names h f) o)) by (intros []; [apply IH|exact Logic.I]).
  assert (A : forall l, quiet (show_args (show pretty names h f) l)) by (intros; apply show_args_quiet, IH).
  destruct (nth_error h r) as [[q n fo [x|] sc|c x y|p a|n d fo|a|tx full|name|x|x y|p pos]|]; quiet; auto.
Qed.
Lemma print_quiet U keys pretty f t : quiet (print U keys pretty f t).
Proof.
  destruct t as [[r h]|]; [|exact Logic.I]. unfold print. apply quiet_bind; [apply visited_quiet|]. intros l.
  apply quiet_bind; [apply var_runes_quiet|]. intros seen. destruct (negb _ && _); [apply show_quiet|].
  apply quiet_bind; [apply assign_quiet|]. intros. apply quiet_bind; [apply show_quiet|]. intros; exact Logic.I.
Qed.

(** ** PrettyString is never the word fragment *)

Lemma bind_ok {A B} (r : res A) (f : A -> res B) b : bind r f = Ok b -> exists a, r = Ok a /\ f a = Ok b.
Proof. destruct r; cbn; try discriminate. eauto. Qed.
Ltac binds := repeat match goal with
  | H : bind _ _ = Ok _ |- _ => apply bind_ok in H; destruct H as (? & ? & H)
  end.

Section Shown.
Variables (pretty : bool) (h : heap).
Notation names := (@None (list string)).
Notation sv := (show_var pretty names).

Lemma flat_res_in {A B} (f : A -> res (list B)) l : forall v x, flat_res f l = Ok v -> In x v -> exists y w, In y l /\ f y = Ok w /\ In x w.
Proof.
  induction l as [|y l IH]; intros v x E I; cbn [flat_res] in E; [injection E as <-; contradiction|]. binds. injection E as <-.
  apply in_app_or in I. destruct I as [I|I]; [exists y, x0; cbn; auto|]. destruct (IH _ _ H0 I) as (z & w & Z & W & J). exists z, w. cbn. auto.
Qed.
Lemma show_args_in (f : ref -> res string) n l : forall s x, show_args f l = Ok s -> In (Some x) l ->
  (forall t, f x = Ok t -> contains n t) -> contains n s.
Proof.
  induction l as [|y l IH]; intros s x E I C; [contradiction|]. cbn [show_args] in E. binds. injection E as <-. destruct I as [->|I].
  - apply contains_l, C, H.
  - apply contains_r, contains_r. eapply IH; eassumption.
Qed.
Lemma in_olists (l : list (option ref)) y : In y (flat_map olist l) -> In (Some y) l.
Proof. intros I. apply in_flat_map in I. destruct I as ([z|] & I & J); [|contradiction]. destruct J as [<-|[]]. exact I. Qed.

Ltac side := first [assumption | apply contains_l; side | apply contains_c; side | apply contains_r; side].
Lemma variable_shown : forall f r v s x n d fo, visited h f r = Ok v -> show pretty names h f r = Ok s -> In x v ->
  nth_error h x = Some (CVariable n d fo) -> contains (sv n) s.
Proof.
  induction f as [|f IH]; intros r v s x n d fo V S I E; [discriminate|]. cbn [visited] in V. cbn [show] in S.
  destruct (nth_error h r) as [c|] eqn:Er; [|discriminate]. apply bind_ok in V. destruct V as (vs & Vs & V). injection V as <-. destruct I as [->|I].
  { rewrite Er in E. injection E as ->. injection S as <-. apply contains_refl. }
  destruct (flat_res_in _ _ _ _ Vs I) as (y & w & Y & W & J).
  assert (C : forall t, show pretty names h f y = Ok t -> contains (sv n) t) by (intros t T; eapply IH; eassumption). clear I Vs.
  assert (Co : forall o t, In y (olist o) -> show_opt (show pretty names h f) o = Ok t -> contains (sv n) t).
  { intros [z|] t Z T; [|contradiction]. destruct Z as [->|[]]. apply C, T. }
  assert (Ca : forall l t, In y (flat_map olist l) -> show_args (show pretty names h f) l = Ok t -> contains (sv n) t).
  { intros l t Z T. eapply show_args_in; [exact T|apply in_olists, Z|exact C]. }
  destruct c as [q m fo' rs sc|c x0 y0|p a|m d' fo'|a|tx full|name|x0|x0 y0|p pos]; cbn [below] in Y.
  - apply in_app_or in Y. destruct rs as [rs|]; cbn [olist] in Y.
    + apply bind_ok in S. destruct S as (a & A & S). apply bind_ok in S. destruct S as (b & B & S). injection S as <-. destruct Y as [[->|[]]|Y].
      * apply C in A. side.
      * apply (Co _ _ Y) in B. side.
    + destruct Y as [[]|Y]. apply bind_ok in S. destruct S as (b & B & S). injection S as <-. apply (Co _ _ Y) in B. side.
  - destruct (nth_error h x0) as [cx|]; [|discriminate]. destruct (nth_error h y0) as [cy|]; [|discriminate].
    apply bind_ok in S. destruct S as (a & A & S). apply bind_ok in S. destruct S as (b & B & S). injection S as <-.
    destruct Y as [->|[->|[]]].
    + apply C in A. apply contains_l. destruct (parens c cx); side.
    + apply C in B. destruct (parens c cy); side.
  - assert (Norm : forall s, (bind (show pretty names h f p) (fun n => bind (show_args (show pretty names h f) a) (fun s => Ok (n ++ "(" ++ s ++ ")")%string))) = Ok s ->
      contains (sv n) s).
    { intros s' S'. apply bind_ok in S'. destruct S' as (t & T & S'). apply bind_ok in S'. destruct S' as (u & Z & S'). injection S' as <-.
      destruct Y as [->|Y]; [apply C in T|apply (Ca _ _ Y) in Z]; side. }
    destruct (nth_error h p) as [cp|] eqn:Ep; [|apply Norm, S]. destruct cp; try apply Norm, S.
    assert (Yp : p = y -> False).
    { intros ->. destruct f; [discriminate|]. cbn [visited] in W. rewrite Ep in W. cbn in W. injection W as <-. destruct J as [<-|[]]. congruence. }
    destruct Y as [Y|Y]; [contradiction|].
    destruct a as [|a0 [|a1 [|a2 a]]]; try apply Norm, S. destruct (is_bin_op name).
    + apply bind_ok in S. destruct S as (t & T & S). apply bind_ok in S. destruct S as (u & Z & S). injection S as <-.
      cbn [flat_map] in Y. apply in_app_or in Y. destruct Y as [Y|Y]; [apply (Co _ _ Y) in T; side|].
      rewrite app_nil_r in Y. apply (Co _ _ Y) in Z. side.
    + apply bind_ok in S. destruct S as (u & Z & S). injection S as <-. apply (Ca _ _ Y) in Z. side.
  - contradiction.
  - apply bind_ok in S. destruct S as (u & Z & S). injection S as <-. apply (Ca _ _ Y) in Z. side.
  - contradiction.
  - contradiction.
  - destruct Y as [->|[]]. apply bind_ok in S. destruct S as (u & Z & S). injection S as <-. apply C in Z. side.
  - apply bind_ok in S. destruct S as (t & T & S). apply bind_ok in S. destruct S as (u & Z & S). injection S as <-.
    destruct Y as [->|[->|[]]]; [apply C in T|apply C in Z]; side.
  - destruct Y as [->|[]]. apply bind_ok in S. destruct S as (u & Z & S). injection S as <-. apply C in Z. side.
Qed.
End Shown.

Lemma var_runes_nonempty U h f : forall l seen out, var_runes U h f l seen = Ok out -> out <> [] ->
  seen <> [] \/ exists x n d fo, In x l /\ nth_error h x = Some (CVariable n d fo).
Proof.
  induction l as [|r l IH]; intros seen out E N; cbn [var_runes] in E; [injection E as ->; left; exact N|].
  assert (K : forall seen', var_runes U h f l seen' = Ok out -> seen' = seen \/ (exists n d fo, nth_error h r = Some (CVariable n d fo)) ->
     seen <> [] \/ exists x n d fo, In x (r :: l) /\ nth_error h x = Some (CVariable n d fo)).
  { intros seen' E' [->|(n & d & fo & Er)]; [|right; exists r, n, d, fo; cbn; auto].
    destruct (IH _ _ E' N) as [A|(x & n & d & fo & I & X)]; [left; exact A|right; exists x, n, d, fo; cbn; auto]. }
  destruct (nth_error h r) as [c|]; [|eapply K; eauto]. destruct c; try solve [eapply K; eauto].
  destruct (existsb _ seen); [eapply K; eauto|]. binds. eapply K; eauto 6.
Qed.

Lemma italic_x v : exists s, math_italic ("X" ++ itoa v)%string = String (ascii_of_nat 240) s.
Proof.
  unfold math_italic, runes. cbn [String.append String.length runes_fuel].
  destruct (decode_rune (String "X" (itoa v))) as [r w] eqn:D. cbn [map of_runes].
  assert (X : r = 88%N) by (unfold decode_rune in D; cbn in D; injection D as <- _; reflexivity). subst r.
  cbn. eexists. reflexivity.
Qed.
Lemma no_high c s t : contains (String (ascii_of_nat 240) c) t -> t = s -> Forall (fun a => nat_of_ascii a < 128) (list_ascii_of_string s) -> False.
Proof.
  intros (a & b & ->) <- F. revert F. induction a as [|x a IH]; cbn; intros F; inversion F; subst; [|auto].
  match goal with H : nat_of_ascii _ < 128 |- _ => cbv in H; lia end.
Qed.

Lemma pretty_not_fragment U fuel t s : pretty_string U fuel (Some t) = Ok s -> s <> "fragment".
Proof.
  intros E Fr. destruct t as [r h]. unfold pretty_string, print in E. binds.
  destruct (negb _ && _) eqn:B.
  - assert (N : x0 <> []) by (intros ->; discriminate).
    destruct (var_runes_nonempty _ _ _ _ _ _ H0 N) as [C|(v & n & d & fo & I & V)]; [contradiction|].
    assert (C := variable_shown _ _ _ _ _ _ _ _ _ _ H E I V). unfold show_var in C. destruct (italic_x n) as [c X]. rewrite X in C.
    eapply no_high; [exact C|exact Fr|]. cbn. repeat constructor; cbv; lia.
  - binds. injection E as <-.
    assert (G : forall u v : string, (u ++ ".")%string = v -> exists w, list_ascii_of_string v = w ++ ["."%char]).
    { intros u v <-. exists (list_ascii_of_string u). induction u as [|c u IH]; cbn; [reflexivity|now rewrite IH]. }
    destruct (G _ _ Fr) as (w & W). cbn in W. apply (f_equal (@rev ascii)) in W. rewrite rev_app_distr in W. discriminate W.
Qed.
