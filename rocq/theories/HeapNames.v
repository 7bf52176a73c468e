(** The names of the predicates in the tree that Interpret returns: "=", "≺", "raq", "chua"
    and the predicate words of the text. *)

From Coq Require Import String NArith List Bool Arith Lia.
From Verif Require Import Base PegSyntax Ast AstSorts Logic LogicWords LogicSpec Interp WordSpell.
From Verif Require Simplify.
Import ListNotations.
Open Scope string_scope.
Open Scope list_scope.
Open Scope nat_scope.

Section Names.
Variable U : unicode.
Variable P : string -> Prop.
Hypothesis Peq : P "=".
Hypothesis Pin : P "≺".
Hypothesis Praq : P "raq".
Hypothesis Pchua : P "chua".

Definition cell_ok (c : cell) : Prop := match c with CPred name => P name | _ => True end.
Definition named (h : heap) : Prop := Forall cell_ok h.

Lemma named_app h c : named h -> cell_ok c -> named (h ++ [c]).
Proof. intros H C. apply Forall_app. split; [exact H|repeat constructor; exact C]. Qed.
Lemma named_set h c : named h -> cell_ok c -> forall r, named (set_nth r c h).
Proof. intros H C. induction H as [|x h X H IH]; intros [|r]; cbn; constructor; auto; exact (IH r). Qed.
Lemma named_nth h r c : named h -> nth_error h r = Some c -> cell_ok c.
Proof. intros H E. unfold named in H. rewrite Forall_forall in H. exact (H _ (nth_error_In _ _ E)). Qed.

(** [m] keeps the names and its result has [Q]. *)
Section Tri.
Context {T : Type} (heap_of : T -> heap).
Definition tri {A} (m : Logic.M T A) (Q : A -> Prop) : Prop :=
  forall s, named (heap_of s) -> match m s with Ok (a, s') => named (heap_of s') /\ Q a | _ => True end.
Lemma tri_ret {A} (a : A) (Q : A -> Prop) : Q a -> tri (ret a) Q.
Proof. intros H s N. split; assumption. Qed.
Lemma tri_bind {A B} (m : Logic.M T A) (f : A -> Logic.M T B) (Q : A -> Prop) (R : B -> Prop) :
  tri m Q -> (forall a, Q a -> tri (f a) R) -> tri (mbind m f) R.
Proof.
  intros H G s N. unfold mbind. specialize (H s N). destruct (m s) as [[a s']| |]; try exact I. destruct H as [N' H]. exact (G a H s' N').
Qed.
Lemma tri_lift {A} (r : res A) (Q : A -> Prop) : (forall a, r = Ok a -> Q a) -> tri (lift r) Q.
Proof. intros H s N. unfold lift. destruct r; cbn; auto. Qed.
Lemma tri_panic {A} msg (Q : A -> Prop) : tri (panic msg) Q.
Proof. intros s N. exact I. Qed.
Lemma tri_crash {A} (Q : A -> Prop) : tri crash Q.
Proof. intros s N. exact I. Qed.
Lemma tri_fuel {A} (Q : A -> Prop) : tri out_of_fuel Q.
Proof. intros s N. exact I. Qed.
Lemma tri_weaken {A} (m : Logic.M T A) (Q R : A -> Prop) : tri m Q -> (forall a, Q a -> R a) -> tri m R.
Proof. intros H G s N. specialize (H s N). destruct (m s) as [[a s']| |]; try exact I. destruct H. auto. Qed.
End Tri.

(** ** Interpreting *)

Notation "'KEEP' m" := (tri s_heap m (fun _ => True)) (at level 10, m at level 9).

Lemma k_alloc c : cell_ok c -> KEEP (alloc c).
Proof. intros C s N. split; [|exact I]. cbn. apply named_app; assumption. Qed.
Lemma k_set r c : cell_ok c -> KEEP (set r c).
Proof. intros C s N. split; [|exact I]. cbn. apply named_set; assumption. Qed.
Lemma k_get r : tri s_heap (get r) cell_ok.
Proof. intros s N. unfold get. destruct (nth_error _ _) eqn:E; [|exact I]. split; [exact N|exact (named_nth _ _ _ N E)]. Qed.
Lemma k_get_binding r : KEEP (get_binding r).
Proof. eapply tri_bind; [apply k_get|]. intros c C. destruct c; try apply tri_crash. apply tri_ret, I. Qed.
Lemma k_set_binding r b : KEEP (set_binding r b).
Proof. apply k_set, I. Qed.
Lemma k_set_restriction r x : KEEP (set_restriction r x).
Proof. eapply tri_bind; [apply k_get_binding|]. intros. apply k_set_binding. Qed.
Lemma k_set_scope r x : KEEP (set_scope r x).
Proof. eapply tri_bind; [apply k_get_binding|]. intros. apply k_set_binding. Qed.
Lemma k_set_quantifier r x : KEEP (set_quantifier r x).
Proof. eapply tri_bind; [apply k_get_binding|]. intros. apply k_set_binding. Qed.
Lemma k_set_focus r : KEEP (set_focus r).
Proof. eapply tri_bind; [apply k_get_binding|]. intros. apply k_set_binding. Qed.
Ltac same := intros s N; (split; [exact N|exact I]).
Lemma k_new_var : KEEP new_var. Proof. same. Qed.
Lemma k_set_hoa l : KEEP (set_hoa l). Proof. same. Qed.
Lemma k_hoa_scope : KEEP hoa_scope. Proof. same. Qed.
Lemma k_push_hoa r : KEEP (push_hoa r). Proof. same. Qed.
Lemma k_pop_hoa : KEEP pop_hoa. Proof. same. Qed.
Lemma k_add_the r : KEEP (add_the r). Proof. same. Qed.
Lemma k_the_scope : KEEP the_scope. Proof. same. Qed.
Lemma k_hi_scope : KEEP hi_scope. Proof. same. Qed.
Lemma k_set_hi l : KEEP (set_hi l). Proof. same. Qed.
Lemma k_lifted k : KEEP (lifted k). Proof. same. Qed.
Lemma k_set_lifted k r : KEEP (set_lifted k r). Proof. same. Qed.
Lemma k_var_scope : KEEP var_scope. Proof. same. Qed.
Lemma k_set_vars l : KEEP (set_vars l). Proof. same. Qed.
Lemma k_push_var v d : KEEP (push_var v d). Proof. same. Qed.
Lemma k_lookup_var v : KEEP (lookup_var v).
Proof.
  intros s N. unfold lookup_var. destruct (find _ _) as [[? d]|].
  - assert (K : KEEP (mbind (get_binding d) (fun b => ret (b_n b, Some d)))) by (eapply tri_bind; [apply k_get_binding|intros; apply tri_ret, I]). exact (K s N).
  - split; [exact N|exact I].
Qed.
Lemma k_assert l n : tri s_heap (assert l n) (fun n' => n' = n).
Proof. unfold assert. destruct (among l n); [apply tri_ret; reflexivity|apply tri_crash]. Qed.
Lemma k_asserted {A} l n (f : node -> Interp.M A) Q : tri s_heap (f n) Q -> tri s_heap (mbind (assert l n) f) Q.
Proof. intros H. eapply tri_bind; [apply k_assert|]. intros ? ->. exact H. Qed.
Lemma k_with_vars {A} (m : Interp.M A) Q : tri s_heap m Q -> tri s_heap (with_vars m) Q.
Proof.
  intros H. eapply tri_bind; [apply k_var_scope|]. intros vs _. eapply tri_bind; [exact H|]. intros a Qa.
  eapply tri_bind; [apply k_set_vars|]. intros. apply tri_ret, Qa.
Qed.

Variable ol : list (N * N).
Variable vf : nat.

Lemma k_bind_scope_fuel : forall f b x, KEEP (bind_scope_fuel f b x).
Proof.
  induction f as [|f IH]; intros b x; [apply tri_fuel|]. cbn [bind_scope_fuel]. eapply tri_bind; [apply k_get_binding|]. intros c _. destruct (b_scope c).
  - eapply tri_bind; [apply IH|]. intros. eapply tri_bind; [apply k_set_scope|]. intros. apply tri_ret, I.
  - eapply tri_bind; [apply k_set_scope|]. intros. apply tri_ret, I.
Qed.
Lemma k_bind_scope b x : KEEP (bind_scope vf b x).
Proof. destruct b; [apply k_bind_scope_fuel|apply tri_ret, I]. Qed.
Lemma k_has_free_vars r : KEEP (has_free_vars vf r).
Proof.
  intros s N. unfold has_free_vars. destruct (visited _ _ _) as [l| |]; cbn [bind]; try exact I.
  destruct (free_scan _ _ _ _) as [b| |]; cbn [bind]; try exact I. split; [exact N|exact I].
Qed.
Lemma k_clear_vars scope : forall l, KEEP (clear_vars scope l).
Proof.
  induction l as [|r l IH]; [apply tri_ret, I|]. cbn [clear_vars]. eapply tri_bind; [apply k_get|]. intros c _. destruct c; try exact IH.
  destruct (match def with Some x => memb x scope | None => false end); [exact IH|]. eapply tri_bind; [apply k_new_var|]. intros x _. eapply tri_bind; [apply k_set, I|]. intros. exact IH.
Qed.
Lemma k_clear scope hi : KEEP (clear_hi_free_var_defs vf scope hi).
Proof. intros s N. unfold clear_hi_free_var_defs. destruct (visited _ _ _) as [l| |]; cbn [bind]; try exact I. exact (k_clear_vars scope l s N). Qed.
Lemma k_bind_his : forall his scope x, KEEP (bind_his vf scope his x).
Proof.
  induction his as [|h his IH]; intros scope x; [apply tri_ret, I|]. cbn [bind_his]. eapply tri_bind; [apply k_clear|]. intros. eapply tri_bind; [apply k_bind_scope|]. intros. apply IH.
Qed.

Ltac kstep :=
  match goal with
  | |- tri _ (let _ := _ in _) _ => cbv zeta
  | |- tri _ (mbind (ret _) _) _ => eapply tri_bind; [apply tri_ret; exact I|]
  | |- tri _ (mbind (assert _ _) _) _ => apply k_asserted
  | |- tri _ (mbind _ _) _ => eapply tri_bind
  | |- tri _ (ret _) _ => apply tri_ret
  | |- tri _ (panic _) _ => apply tri_panic
  | |- tri _ crash _ => apply tri_crash
  | |- tri _ (alloc _) _ => apply k_alloc
  | |- tri _ (set _ _) _ => apply k_set
  | |- tri _ (get_binding _) _ => apply k_get_binding
  | |- tri _ (set_restriction _ _) _ => apply k_set_restriction
  | |- tri _ (set_scope _ _) _ => apply k_set_scope
  | |- tri _ (set_quantifier _ _) _ => apply k_set_quantifier
  | |- tri _ (set_binding _ _) _ => apply k_set_binding
  | |- tri _ (set_focus _) _ => apply k_set_focus
  | |- tri _ new_var _ => apply k_new_var
  | |- tri _ hoa_scope _ => apply k_hoa_scope
  | |- tri _ (push_hoa _) _ => apply k_push_hoa
  | |- tri _ pop_hoa _ => apply k_pop_hoa
  | |- tri _ (add_the _) _ => apply k_add_the
  | |- tri _ hi_scope _ => apply k_hi_scope
  | |- tri _ (set_hi _) _ => apply k_set_hi
  | |- tri _ (lifted _) _ => apply k_lifted
  | |- tri _ (set_lifted _ _) _ => apply k_set_lifted
  | |- tri _ var_scope _ => apply k_var_scope
  | |- tri _ (push_var _ _) _ => apply k_push_var
  | |- tri _ (lookup_var _) _ => apply k_lookup_var
  | |- tri _ (assert _ _) _ => apply k_assert
  | |- tri _ (bind_scope _ _ _) _ => apply k_bind_scope
  | |- tri _ (has_free_vars _ _) _ => apply k_has_free_vars
  | |- tri _ (bind_his _ _ _ _) _ => apply k_bind_his
  | |- tri _ (with_vars _) _ => apply k_with_vars
  | |- tri _ (lift (po_pred _ _)) _ => fail 1
  | |- tri _ (lift _) _ => apply (tri_lift s_heap _ (fun _ => True)); intros; exact I
  | |- forall _, _ => intro
  | |- cell_ok (CPred _) => assumption
  | |- cell_ok _ => exact I
  | |- True => exact I
  end.
Ltac ks := repeat kstep.

Lemma k_distribute p a : KEEP (distribute_predication p a).
Proof. induction p; cbn [distribute_predication]; ks; eassumption. Qed.
Lemma k_serial_right l r : KEEP (serial_right l r).
Proof. induction r; cbn [serial_right]; ks; eassumption. Qed.
Lemma k_serial_left l r : KEEP (serial_left l r).
Proof. induction l; cbn [serial_left]; ks; try eassumption. apply k_serial_right. Qed.
Lemma k_make_lambda p a : KEEP (make_lambda p a).
Proof. unfold make_lambda. ks. Qed.
Lemma k_content x : KEEP (make_content_pred x).
Proof. unfold make_content_pred. ks. apply k_make_lambda. Qed.
Lemma k_new_binding q f : KEEP (new_binding q f).
Proof. unfold new_binding. ks. Qed.
Lemma k_restrict b a x : KEEP (restrict_content b a x).
Proof. unfold restrict_content. ks. apply k_content. Qed.
Lemma k_subordinate m : KEEP m -> KEEP (subordinate vf m).
Proof. intros H. unfold subordinate. ks. exact H. Qed.

(** The predicate words in [n] have [P] after wordPred. *)
Definition fine (n : node) : Prop := forall s, In s (predicate_texts n) -> P (word_pred U s).
Definition fines (l : list node) : Prop := forall n, In n l -> fine n.
Definition fine0 (a : arg0) : Prop := match a with AVar _ => True | ATail _ st _ ts => fine st /\ fines ts end.
Definition fineo (o : option node) : Prop := match o with Some n => fine n | None => True end.
Definition call_ok {A} (c : call A) : Prop :=
  match c with
  | KSentence n | KSubordinate n | KStatement _ n | KPredicate n | KPoArgument _ _ n | KAdverb n _ | KRelative _ n => fine n
  | KPrenex _ st _ ts => fine st /\ fines ts
  | KPreposition n a0 => fine n /\ fine0 a0
  | KPredPreposition p a0 a1 => fine p /\ fine0 a0 /\ fine a1
  | KRoi l r | KRoiLeft _ l r => fine l /\ fine r
  | KRoiRight _ _ r => fine r
  | KPredArg _ _ p rel => fine p /\ fineo rel
  end.
Definition res_ok {A} (c : call A) : A -> Prop :=
  match c in call A return A -> Prop with
  | KPrenex _ _ _ _ => fun x => fines (snd x)
  | KPreposition _ _ => fun x => fines (snd x)
  | KPredPreposition _ _ _ => fun x => fines (snd x)
  | _ => fun _ => True
  end.

Lemma fine_app_l n l r : predicate_texts n = l ++ r -> fine n -> forall s, In s l -> P (word_pred U s).
Proof. intros E F s I. apply F. rewrite E. apply in_or_app. auto. Qed.
Lemma fine_app_r n l r : predicate_texts n = l ++ r -> fine n -> forall s, In s r -> P (word_pred U s).
Proof. intros E F s I. apply F. rewrite E. apply in_or_app. auto. Qed.
Lemma fines_flat l : (forall s, In s (flat_map predicate_texts l) -> P (word_pred U s)) -> fines l.
Proof. intros H n I s S. apply H, in_flat_map. eauto. Qed.
Lemma flat_fines l : fines l -> forall s, In s (flat_map predicate_texts l) -> P (word_pred U s).
Proof. intros H s S. apply in_flat_map in S. destruct S as (n & I & S). exact (H n I s S). Qed.
Lemma fines_nil : fines [].
Proof. intros n []. Qed.
Lemma fines_cons n l : fine n -> fines l -> fines (n :: l).
Proof. intros F G x [<-|I]; auto. Qed.
Lemma fines_app l l' : fines l -> fines l' -> fines (l ++ l').
Proof. intros F G n I. apply in_app_or in I. destruct I; auto. Qed.
Lemma fines_head n l : fines (n :: l) -> fine n.
Proof. intros F. apply F. left. reflexivity. Qed.
Lemma fines_tail n l : fines (n :: l) -> fines l.
Proof. intros F x I. apply F. right. exact I. Qed.
Lemma fines_tl l : fines l -> fines (tl l).
Proof. destruct l; [auto|apply fines_tail]. Qed.

Section Body.
Variable self : forall A, call A -> Interp.M A.
Arguments self {A} _.
Hypothesis S : forall A (c : call A), call_ok c -> tri s_heap (self c) (res_ok c).

Lemma k_self {A} (c : call A) : call_ok c -> KEEP (self c).
Proof. intros C. eapply tri_weaken; [apply S, C|]. auto. Qed.


Ltac sub_fine :=
  match goal with
  | |- fine _ => assumption
  | |- fineo (Some _) => change (fine _); sub_fine
  | |- fineo None => exact I
  | |- fines [] => apply fines_nil
  | |- fines (_ :: _) => apply fines_cons; sub_fine
  | |- fines (_ ++ _) => apply fines_app; sub_fine
  | |- fines (prepend _ _) => apply fines_app; sub_fine
  | |- fines (tl _) => apply fines_tl; sub_fine
  | |- fines _ => assumption
  | H : fine ?n |- fine ?m => let s := fresh in let I := fresh in intros s I; apply H; cbn [predicate_texts olist]; rewrite ?in_app_iff; tauto
  | H : fine (NTerms ?l) |- fines ?l => apply fines_flat; exact H
  | |- _ /\ _ => split; sub_fine
  | |- True => exact I
  | |- _ => assumption
  end.
Ltac go :=
  repeat first [kstep | apply k_self; cbn [call_ok]; sub_fine ].
Ltac call := first [apply k_self; cbn [call_ok]; sub_fine | eapply tri_weaken; [apply S; cbn [call_ok]; sub_fine|cbn [res_ok]; intros]].


Lemma k_sentence n : fine n -> KEEP (do_sentence U (@self) n).
Proof.
  intros F. destruct n; try apply tri_panic; cbn [do_sentence].
  - call.
  - destruct k; try apply tri_panic. destruct (negb _); [apply tri_panic|]. go.
Qed.
Lemma k_predication p a : fine p -> KEEP (predication (@self) p a).
Proof. intros F. unfold predication. go. apply k_distribute. Qed.
Lemma k_make_predication p l : fine p -> KEEP (make_predication (@self) p l).
Proof. intros F. apply k_predication, F. Qed.

Lemma k_statement a n : fine n -> KEEP (do_statement U (@self) a n).
Proof.
  intros F. apply k_with_vars. destruct n; try apply tri_panic.
  - destruct n1; try apply tri_panic. eapply tri_bind.
    + apply k_self. cbn [call_ok]. split; [sub_fine|]. apply fines_flat. intros s I. apply F. cbn. apply in_or_app. auto.
    + intros [x ?] _. apply tri_ret, I.
  - destruct ts as [ts|].
    + apply k_self. cbn [call_ok]. intros s I. apply F. cbn in *. rewrite app_nil_r in I. apply in_or_app. apply in_app_or in I. tauto.
    + apply k_predication. sub_fine.
  - destruct k; try apply tri_panic. go.
Qed.
Lemma k_po_predicate po arg : fine arg -> KEEP (po_predicate U (@self) po arg).
Proof.
  intros F. unfold po_predicate. eapply tri_bind.
  - apply (tri_lift s_heap _ P). intros x E. unfold po_pred in E. destruct (has_text U po "po"); [injection E as <-; exact Praq|]. destruct (has_text U po "jei"); [injection E as <-; exact Peq|discriminate].
  - intros x Px. go.
Qed.
Lemma k_predicate n : fine n -> KEEP (do_predicate U ol vf (@self) n).
Proof.
  intros F. destruct n; try apply tri_panic; cbn [do_predicate].
  - (* serial *) go. apply k_serial_left.
  - destruct (is_variable U ol (NWordPredicate w)) as [v|].
    + eapply tri_bind; [apply k_lookup_var|]. intros [x d] _. go.
    + destruct (is_hoa U (NWordPredicate w)).
      * eapply tri_bind; [apply k_hoa_scope|]. intros [|d l] _; go.
      * eapply tri_bind; [apply k_alloc|]; [|go]. cbn. apply F. left. reflexivity.
  - (* mi *) eapply tri_bind; [apply k_alloc, I|]. intros q _. eapply tri_bind; [apply (tri_lift s_heap _ (fun _ => True)); intros; exact I|]. intros m _.
    eapply tri_bind with (Q := fun _ => True); [destruct m; go|]. intros p _. eapply tri_bind; [apply k_make_lambda|]. go.
  - (* po *) eapply tri_bind; [apply k_po_predicate; sub_fine|]. go.
  - (* mo *) go. apply k_make_lambda.
  - (* pred content *) go. apply k_content.
  - destruct k; try apply tri_panic.
    all: go.
  - destruct k; try apply tri_panic.
    + destruct (LogicWords.has_text U lu "lu"); go.
    + go. apply k_content.
Qed.

Lemma k_argument_case {A} n unknown (one : option ref -> ref -> Interp.M A) two (Q : A -> Prop) : fine n ->
  (forall b a, tri s_heap (one b a) Q) -> (forall ru l r, fine l -> fine r -> tri s_heap (two ru l r) Q) ->
  tri s_heap (argument_case U (@self) n unknown one two) Q.
Proof.
  intros F O W. destruct n; try apply tri_panic; cbn [argument_case].
  - eapply tri_bind; [apply k_self|intros [b a] _; apply O]. cbn [call_ok]. split; [sub_fine|]. destruct rel; [|exact I]. cbn [fineo]. sub_fine.
  - destruct k; try apply tri_panic. destruct (LogicWords.has_text U ru "roi").
    + eapply tri_bind; [apply k_self|intros [b a] _; apply O]. cbn [call_ok]. split; sub_fine.
    + apply W; sub_fine.
Qed.
Lemma k_po_argument p a0 a1 : fine a1 -> KEEP (po_argument U vf (@self) p a0 a1).
Proof. intros F. apply k_with_vars, k_argument_case; [exact F|intros; go|intros; go]. Qed.

Lemma k_prenex_call a st bi ts : fine st -> fines ts -> tri s_heap (self (KPrenex a st bi ts)) (fun x => fines (snd x)).
Proof. intros F G. exact (S _ (KPrenex a st bi ts) (conj F G)). Qed.
Lemma k_preposition_call n a0 : fine n -> fine0 a0 -> tri s_heap (self (KPreposition n a0)) (fun x => fines (snd x)).
Proof. intros F G. exact (S _ (KPreposition n a0) (conj F G)). Qed.
Lemma k_pred_preposition_call p a0 a1 : fine p -> fine0 a0 -> fine a1 -> tri s_heap (self (KPredPreposition p a0 a1)) (fun x => fines (snd x)).
Proof. intros F G H. exact (S _ (KPredPreposition p a0 a1) (conj F (conj G H))). Qed.

Ltac prenex := eapply tri_bind; [apply k_prenex_call; sub_fine|cbn [snd]; intros [? ?] ?; cbn [snd] in *].
Ltac done_ := apply tri_ret; cbn [snd]; sub_fine.
Lemma k_prenex a st bi ts : fine st -> fines ts -> tri s_heap (prenex_statement U vf (@self) a st bi ts) (fun x => fines (snd x)).
Proof.
  intros F G. apply k_with_vars. destruct ts as [|t rest].
  - eapply tri_bind; [call|]. intros. apply tri_ret. apply fines_nil.
  - assert (Ft := fines_head _ _ G). assert (Fr := fines_tail _ _ G).
    assert (Prep : tri s_heap (do '(sub, rest') <- self (KPrenex a st bi rest) ; do free <- has_free_vars vf sub ;
            if (free : bool) then
              do '(z, rest'') <- self (KPreposition t (ATail a st bi rest')) ;
              ret (z, t :: rest'')
            else
              do '(b, x) <- new_binding QThe false ;
              do _ <- restrict_content b x sub ;
              do _ <- add_the b ;
              do '(z, _) <- self (KPreposition t (AVar x)) ;
              ret (z, t :: rest')) (fun x => fines (snd x))).
    { prenex. eapply tri_bind; [apply k_has_free_vars|]. intros [|] _.
      - eapply tri_bind; [apply k_preposition_call; [sub_fine|cbn [fine0]; sub_fine]|]. intros [? ?] ?; cbn [snd] in *. done_.
      - eapply tri_bind; [apply k_new_binding|]. intros [b x] _. eapply tri_bind; [apply k_restrict|]. intros _ _.
        eapply tri_bind; [apply k_add_the|]. intros _ _. eapply tri_bind; [apply k_preposition_call; [sub_fine|exact I]|]. intros [? ?] ?. done_. }
    assert (Adv : tri s_heap (do '(sub, rest') <- self (KPrenex a st bi rest) ;
            do '(b, x) <- new_binding QUnset false ;
            do _ <- restrict_content b x sub ;
            do free <- has_free_vars vf sub ;
            if (free : bool) then
              do _ <- set_quantifier b QAll ;
              do s <- self (KAdverb t x) ;
              do z <- bind_scope vf (Some b) s ;
              ret (z, t :: rest')
            else
              do _ <- set_quantifier b QThe ;
              do _ <- add_the b ;
              do z <- self (KAdverb t x) ;
              ret (z, t :: rest')) (fun x => fines (snd x))).
    { prenex. eapply tri_bind; [apply k_new_binding|]. intros [b x] _. eapply tri_bind; [apply k_restrict|]. intros _ _.
      eapply tri_bind; [apply k_has_free_vars|]. intros [|] _; go; cbn [snd]; sub_fine. }
    destruct t; try apply tri_panic.
    + (* linked *) apply k_argument_case; [sub_fine| |].
      * intros b x. eapply tri_bind; [apply (tri_lift s_heap _ (fun _ => True)); intros; exact I|]. intros pos _. prenex. eapply tri_bind; [apply k_bind_scope|]. intros. done_.
      * intros ru l r Fl Frr. apply k_asserted, k_asserted. eapply tri_bind; [apply (tri_lift s_heap _ (fun _ => True)); intros; exact I|]. intros c _.
        prenex. prenex. eapply tri_bind; [apply k_alloc, I|]. intros. done_.
    + (* argument *) eapply tri_bind; [apply k_self|].
      { cbn [call_ok]. split; [sub_fine|]. destruct rel; [|exact I]. cbn [fineo]. sub_fine. }
      intros [b x] _. eapply tri_bind with (Q := fun _ => True); [destruct b; [destruct (_ && _)|]; go|]. intros _ _. prenex.
      eapply tri_bind; [apply k_bind_scope|]. intros. done_.
    + exact Adv.
    + exact Prep.
    + destruct k; try apply tri_panic; try exact Adv; try exact Prep.
      * destruct t1; try apply tri_crash. destruct t2; try apply tri_crash.
        eapply tri_bind; [apply (tri_lift s_heap _ (fun _ => True)); intros; exact I|]. intros c _.
        assert (F1 : fines ts) by (apply fines_flat; intros s I; apply Ft; cbn; apply in_or_app; auto).
        assert (F2 : fines ts0) by (apply fines_flat; intros s I; apply Ft; cbn; apply in_or_app; auto).
        prenex. prenex. eapply tri_bind; [apply k_alloc, I|]. intros. done_.
      * destruct (LogicWords.has_text U ru "roi").
        -- eapply tri_bind; [apply k_self; cbn [call_ok]; split; sub_fine|]. intros [b x] _. prenex. eapply tri_bind; [apply k_bind_scope|]. intros. done_.
        -- apply k_asserted, k_asserted. eapply tri_bind; [apply (tri_lift s_heap _ (fun _ => True)); intros; exact I|]. intros c _.
           eapply tri_bind; [apply k_prenex_call; [sub_fine|apply fines_cons; sub_fine]|]. intros [x t1'] ?. cbn [snd] in *.
           eapply tri_bind; [apply k_prenex_call; [sub_fine|apply fines_cons; sub_fine]|]. intros [y t2'] ?. cbn [snd] in *.
           eapply tri_bind; [apply k_alloc, I|]. intros. done_.
Qed.

Lemma fine0_terms a0 ts : fine0 a0 -> fines ts -> fine0 (with_terms a0 ts).
Proof. destruct a0; cbn; tauto. Qed.
Lemma k_preposition n a0 : fine n -> fine0 a0 -> tri s_heap (do_preposition U (@self) n a0) (fun x => fines (snd x)).
Proof.
  intros F G. apply k_with_vars. destruct n; try apply tri_panic.
  - apply k_pred_preposition_call; sub_fine.
  - destruct k; try apply tri_panic. eapply tri_bind; [apply (tri_lift s_heap _ (fun _ => True)); intros; exact I|]. intros c _.
    apply k_asserted. eapply tri_bind; [apply k_preposition_call; sub_fine|]. intros [x ts1] ?. cbn [snd] in *.
    apply k_asserted. eapply tri_bind; [apply k_preposition_call; [sub_fine|apply fine0_terms; assumption]|]. intros [y ts2] ?. cbn [snd] in *.
    eapply tri_bind; [apply k_alloc, I|]. intros. done_.
Qed.
Lemma k_pred_preposition p a0 a1 : fine p -> fine0 a0 -> fine a1 -> tri s_heap (pred_preposition U vf (@self) p a0 a1) (fun x => fines (snd x)).
Proof.
  intros F G H. apply k_with_vars, k_argument_case; [exact H| |].
  - intros b a. destruct a0 as [v|args0 st bi ts].
    + eapply tri_bind; [apply k_make_predication, F|]. intros. eapply tri_bind; [apply k_bind_scope|]. intros. done_.
    + destruct G as [G1 G2]. prenex. eapply tri_bind; [apply k_new_binding|]. intros [b1 x] _. eapply tri_bind; [apply k_restrict|]. intros _ _.
      eapply tri_bind; [apply k_make_predication, F|]. intros. eapply tri_bind; [apply k_bind_scope|]. intros. eapply tri_bind; [apply k_bind_scope|]. intros. done_.
  - intros ru l r Fl Fr. eapply tri_bind; [apply (tri_lift s_heap _ (fun _ => True)); intros; exact I|]. intros c _.
    apply k_asserted. eapply tri_bind; [apply k_pred_preposition_call; sub_fine|]. intros [x ts1] ?. cbn [snd] in *.
    apply k_asserted. eapply tri_bind; [apply k_pred_preposition_call; [sub_fine|apply fine0_terms; assumption|sub_fine]|]. intros [y ts2] ?. cbn [snd] in *.
    eapply tri_bind; [apply k_alloc, I|]. intros. done_.
Qed.
Lemma k_adverb n a : fine n -> KEEP (do_adverb U (@self) n a).
Proof.
  intros F. apply k_with_vars. destruct n; try apply tri_panic.
  - apply k_make_predication. sub_fine.
  - destruct k; try apply tri_panic. go.
Qed.
Lemma k_roi l r : fine l -> fine r -> KEEP (do_roi (@self) l r).
Proof. intros F G. unfold do_roi. eapply tri_bind; [apply k_new_binding|]. intros [b a] _. go. Qed.
Lemma k_roi_left x l r : fine l -> fine r -> KEEP (roi_left U vf (@self) x l r).
Proof. intros F G. apply k_argument_case; [exact F|intros; go|intros; go]. Qed.
Lemma k_roi_right x l r : fine r -> KEEP (roi_right U vf (@self) x l r).
Proof. intros F. apply k_argument_case; [exact F|intros; go|intros; go]. Qed.
Lemma k_relative_set b rel : fine rel -> KEEP (do r <- self (KRelative (Some b) rel) ; set_restriction b r).
Proof. intros F. go. Qed.
Lemma k_var_argument v q rel : fineo rel -> KEEP (var_argument U (@self) v q rel).
Proof.
  intros F. unfold var_argument. destruct q as [q|].
  - go. destruct rel; [apply k_relative_set, F|go].
  - eapply tri_bind; [apply k_lookup_var|]. intros [x d] _. eapply tri_bind; [apply k_alloc, I|]. intros ax _. destruct rel as [n|]; [|go].
    eapply tri_bind; [apply k_new_binding|]. intros [b ay] _. cbn [fineo] in F. go.
Qed.
Lemma k_hoa_argument q rel : fineo rel -> KEEP (hoa_argument (@self) q rel).
Proof.
  intros F. unfold hoa_argument. eapply tri_bind; [apply k_hoa_scope|]. intros [|d l] _; [go|].
  eapply tri_bind; [apply k_get_binding|]. intros c _. eapply tri_bind; [apply k_alloc, I|]. intros ax _.
  assert (G : KEEP (do '(b, ay) <- new_binding QAll false ;
          do among <- alloc (CPred "≺") ;
          do l <- alloc (CPredication among [Some ay; Some ax]) ;
          do _ <- set_restriction b l ;
          do _ <- match rel with
                  | Some n =>
                      do r <- self (KRelative (Some b) n) ;
                      do s <- alloc (CConnection KAnd l r) ;
                      set_restriction b s
                  | None => ret tt
                  end ;
          ret (Some b, ay))).
  { eapply tri_bind; [apply k_new_binding|]. intros [b ay] _. eapply tri_bind; [apply k_alloc, Pin|]. intros am _. eapply tri_bind; [apply k_alloc, I|]. intros p _.
    eapply tri_bind; [apply k_set_restriction|]. intros _ _. eapply tri_bind with (Q := fun _ => True); [destruct rel; cbn [fineo] in F; go|]. go. }
  destruct q; [exact G|]. destruct rel; [exact G|]. go.
Qed.
Lemma k_predicate_argument f q p rel : fine p -> fineo rel -> KEEP (predicate_argument U ol vf (@self) f q p rel).
Proof.
  intros F G. unfold predicate_argument. eapply tri_bind; [apply k_lifted|]. intros [b|] _; [go|]. destruct (is_variable U ol p); [apply k_var_argument, G|].
  destruct (is_hoa U p); [apply k_hoa_argument, G|]. eapply tri_bind; [apply (tri_lift s_heap _ (fun _ => True)); intros; exact I|]. intros qq _.
  eapply tri_bind; [apply k_new_binding|]. intros [b a] _. eapply tri_bind; [apply k_make_predication, F|]. intros s _. eapply tri_bind; [apply k_set_restriction|]. intros _ _.
  eapply tri_bind with (Q := fun _ => True); [destruct rel; cbn [fineo] in G; go|]. intros _ _. destruct qq; try solve [go].
  - eapply tri_bind; [apply k_has_free_vars|]. intros [|] _; go.
  - eapply tri_bind; [apply k_set_lifted|]. intros _ _. eapply tri_bind; [apply k_hi_scope|]. intros [|top hs] _; go.
Qed.
Lemma k_relative b n : fine n -> KEEP (relative_clause U (@self) b n).
Proof.
  intros F. apply k_with_vars. eapply tri_bind with (Q := fun _ => True); [destruct b; go|]. intros _ _.
  eapply tri_bind with (Q := fun _ => True).
  - destruct n; try apply tri_panic; [go| |]; destruct k; try apply tri_panic; go.
  - intros s _. eapply tri_bind with (Q := fun _ => True); [destruct b; go|]. go.
Qed.

Lemma k_body {A} (c : call A) : call_ok c -> tri s_heap (body U ol vf (@self) c) (res_ok c).
Proof.
  destruct c; cbn [call_ok res_ok body]; intros C; repeat match goal with H : _ /\ _ |- _ => destruct H end.
  - apply k_sentence; assumption.
  - apply k_subordinate, k_self; assumption.
  - apply k_statement; assumption.
  - apply k_predicate; assumption.
  - apply k_po_argument; assumption.
  - apply k_prenex; assumption.
  - apply k_preposition; assumption.
  - apply k_pred_preposition; assumption.
  - apply k_adverb; assumption.
  - apply k_roi; assumption.
  - apply k_roi_left; assumption.
  - apply k_roi_right; assumption.
  - apply k_predicate_argument; assumption.
  - apply k_relative; assumption.
Qed.

End Body.

Lemma k_run : forall fuel A (c : call A), call_ok c -> tri s_heap (run U ol vf fuel A c) (res_ok c).
Proof. induction fuel as [|f IH]; intros A c C; [apply tri_fuel|]. cbn [run]. apply k_body; [exact IH|exact C]. Qed.
Definition sfines (l : list node) : Prop := forall n, In n l -> is_sentence n = true -> fine n.
Lemma k_items fuel : forall l o, sfines l -> KEEP (all_items U ol vf fuel l o).
Proof.
  induction l as [|n l IH]; intros o F; [apply tri_ret, I|]. cbn [all_items].
  assert (Fl : sfines l) by (intros x X; apply F; right; exact X).
  destruct (is_fragment n); [apply IH, Fl|]. destruct (is_sentence n) eqn:J; [|apply tri_panic].
  eapply tri_bind; [exact (k_run fuel _ (KSentence n) (F n (or_introl eq_refl) J))|]. intros x _.
  destruct o; [|apply IH, Fl]. eapply tri_bind; [apply k_alloc, I|]. intros. apply IH, Fl.
Qed.
Lemma k_bind_all : forall l o, KEEP (bind_all vf l o).
Proof. induction l as [|b l IH]; intros o; [destruct o; apply tri_ret, I|]. cbn [bind_all]. destruct o; [|apply tri_crash]. eapply tri_bind; [apply k_bind_scope|]. intros. apply IH. Qed.
Lemma k_discourse fuel d : sfines d -> KEEP (discourse U ol vf fuel d).
Proof. intros F. eapply tri_bind; [apply k_items, F|]. intros. eapply tri_bind; [apply k_the_scope|]. intros. apply k_bind_all. Qed.

(** ** Simplifying *)

Notation "'SKEEP' m" := (tri Simplify.x_heap m (fun _ => True)) (at level 10, m at level 9).

Lemma x_get r : tri Simplify.x_heap (Simplify.get r) cell_ok.
Proof. intros s N. unfold Simplify.get. destruct (nth_error _ _) eqn:E; [|exact I]. split; [exact N|exact (named_nth _ _ _ N E)]. Qed.
Lemma x_set r c : cell_ok c -> SKEEP (Simplify.set r c).
Proof. intros C s N. split; [|exact I]. cbn. apply named_set; assumption. Qed.
Lemma x_alloc c : cell_ok c -> SKEEP (Simplify.alloc c).
Proof. intros C s N. split; [|exact I]. cbn. apply named_app; assumption. Qed.
Lemma x_substitute n a : SKEEP (Simplify.substitute n a).
Proof. intros s N. split; [exact N|exact I]. Qed.
Lemma x_substituted n : SKEEP (Simplify.substituted n).
Proof. intros s N. split; [exact N|exact I]. Qed.
Ltac xstep :=
  match goal with
  | |- tri _ (mbind (Simplify.get _) _) _ => eapply tri_bind; [apply x_get|intros ? _]
  | |- tri _ (mbind (Simplify.set _ _) _) _ => eapply tri_bind; [apply x_set; exact I|intros ? _]
  | |- tri _ (mbind (Simplify.alloc _) _) _ => eapply tri_bind; [apply x_alloc; exact I|intros ? _]
  | |- tri _ (mbind (Simplify.substitute _ _) _) _ => eapply tri_bind; [apply x_substitute|intros ? _]
  | |- tri _ (mbind (Simplify.substituted _) _) _ => eapply tri_bind; [apply x_substituted|intros ? _]
  | |- tri _ (mbind _ _) _ => eapply tri_bind with (Q := fun _ => True); [|intros ? _]
  | |- tri _ (ret _) _ => apply tri_ret; exact I
  | |- tri _ crash _ => apply tri_crash
  | |- tri _ (match ?x with _ => _ end) _ => destruct x
  | |- tri _ (if ?x then _ else _) _ => destruct x
  | H : _ |- tri _ _ _ => solve [apply H]
  end.
Ltac xs := repeat xstep.

Lemma x_used_args f : (forall r, SKEEP (f r)) -> forall l u, SKEEP (Simplify.used_args f l u).
Proof. intros H. induction l as [|[a|] l IH]; intros u; cbn [Simplify.used_args]; xs. Qed.
Lemma x_add_hoa : forall fuel r b, SKEEP (Simplify.add_hoa fuel r b).
Proof.
  induction fuel as [|f IH]; intros r b; [apply tri_fuel|]. cbn [Simplify.add_hoa]. 
  assert (UA := x_used_args (fun a => Simplify.add_hoa f a None) (fun r => IH r None)). xs.
Qed.
Lemma x_sub pv q rs : SKEEP (Simplify.sub pv q rs).
Proof. unfold Simplify.sub. xs. Qed.
Lemma x_bind_args : forall k l r, SKEEP (Simplify.bind_args k l r).
Proof. induction k as [|k IH]; intros l r; cbn [Simplify.bind_args]; xs. Qed.
Lemma x_map_args f : (forall r, SKEEP (f r)) -> forall l, SKEEP (Simplify.map_args f l).
Proof. intros H. induction l as [|[a|] l IH]; cbn [Simplify.map_args]; xs. Qed.
Lemma x_flat_args f : (forall r, SKEEP (f r)) -> forall l, SKEEP (Simplify.flat_args f l).
Proof. intros H. induction l as [|[a|] l IH]; cbn [Simplify.flat_args]; xs. Qed.
Lemma x_lambdas fuel r : SKEEP (fun s => bind (Simplify.lambdas fuel (Simplify.x_heap s) r) (fun n => Ok (n, s))).
Proof. intros s N. destruct (Simplify.lambdas _ _ _); cbn [bind]; try exact I. split; [exact N|exact I]. Qed.
Lemma x_simplify pv : forall fuel k r, SKEEP (Simplify.simplify pv fuel k r).
Proof.
  induction fuel as [|f IH]; intros k r; [apply tri_fuel|]. cbn [Simplify.simplify].
  assert (MA := x_map_args _ (IH Simplify.RArgument)). assert (FA := x_flat_args _ (IH Simplify.RArgument)). assert (SB := x_sub pv). assert (BA := x_bind_args).
  assert (LA := x_lambdas (S f)). xs.
Qed.
Lemma named_renumber : forall l i h h', named h -> Simplify.renumber l i h = Ok h' -> named h'.
Proof.
  induction l as [|r l IH]; intros i h h' N E; cbn [Simplify.renumber] in E; [injection E as <-; exact N|].
  destruct (nth_error h r) as [[]|] eqn:X; try (eapply IH; [|exact E]; exact N).
  - eapply IH; [|exact E]. apply named_set; [exact N|exact I].
  - destruct def as [d|]; [|eapply IH; [|exact E]; apply named_set; [exact N|exact I]].
    destruct (nth_error h d) as [[]|]; try discriminate. eapply IH; [|exact E]. apply named_set; [exact N|exact I].
Qed.
Lemma named_simplify fuel r h r' h' : named h -> Simplify.simplify_statement fuel r h = Ok (r', h') -> named h'.
Proof.
  intros N E. unfold Simplify.simplify_statement in E. assert (A := x_add_hoa fuel r None (Simplify.SSt h []) N).
  destruct (Simplify.add_hoa _ _ _ _) as [[u s1]| |]; cbn [bind] in E; try discriminate. destruct A as [N1 _]. cbn [snd] in E.
  destruct (Simplify.pred_vars _ _ _) as [pv| |]; cbn [bind] in E; try discriminate.
  assert (B := x_simplify pv fuel Simplify.RStatement r (Simplify.SSt (Simplify.x_heap s1) []) N1).
  destruct (Simplify.simplify _ _ _ _ _) as [[[r2|] s2]| |]; cbn [bind] in E; try discriminate. destruct B as [N2 _].
  unfold Simplify.sequence_var_nums in E. destruct (visited _ _ _) as [l| |]; cbn [bind] in E; try discriminate.
  destruct (Simplify.renumber l 0 _) as [h2| |] eqn:R; cbn [bind] in E; try discriminate. injection E as <- <-. exact (named_renumber _ _ _ _ N2 R).
Qed.
End Names.

Theorem interpret_named U (P : string -> Prop) ol fuel d r h : P "=" -> P "≺" -> P "raq" -> P "chua" ->
  (forall n s, In n d -> is_sentence n = true -> In s (predicate_texts n) -> P (word_pred U s)) ->
  Simplify.interpret U ol fuel d = Ok (Some (r, h)) -> forall name, In (CPred name) h -> P name.
Proof.
  intros P1 P2 P3 P4 F E name I. unfold Simplify.interpret in E.
  assert (D := k_discourse U P P1 P2 P3 P4 ol fuel fuel d (fun n J K s S => F n s J K S) st0 (Forall_nil _)).
  destruct (discourse U ol fuel fuel d st0) as [[[x|] s]| |]; cbn [bind] in E; try discriminate. destruct D as [N _].
  destruct (Simplify.simplify_statement fuel x (s_heap s)) as [[r' h']| |] eqn:Q; cbn [bind] in E; try discriminate. injection E as -> ->.
  assert (N' := named_simplify P fuel x (s_heap s) r h N Q). unfold named in N'. rewrite Forall_forall in N'. exact (N' _ I).
Qed.
