(** The tree that Interpret returns for words in UTF-8 has names and quotations in UTF-8, and
    so have the messages with which Interpret panics. *)

From Coq Require Import String Ascii NArith List Bool Arith Lia.
From Verif Require Import Base Utf8 Utf8Facts PegSyntax Ast AstSorts Logic LogicWords LogicSpec LogicString Interp VisitSpec AppFacts App AppApi Utf8Valid Utf8Shown.
From Verif Require Simplify.
Import ListNotations.
Open Scope string_scope.
Open Scope list_scope.
Open Scope nat_scope.

Opaque utf8.
Section Names.
Variable U : unicode.

Definition cell_ok (c : cell) : Prop := match c with CPred s | CQuote s _ => utf8 s | _ => True end.
Definition named (h : heap) : Prop := Forall cell_ok h.
Definition mild {A} (r : res A) : Prop := match r with Panic (PString s) => utf8 s | _ => True end.
Lemma quiet_mild {A} (r : res A) : quiet r -> mild r.
Proof. destruct r as [a|[s|]|]; cbn; tauto. Qed.

Lemma named_app h c : named h -> cell_ok c -> named (h ++ [c]).
Proof. intros H C. apply Forall_app. split; [exact H|repeat constructor; exact C]. Qed.
Lemma named_set h c : named h -> cell_ok c -> forall r, named (set_nth r c h).
Proof. intros H C. induction H as [|x h X H IH]; intros [|r]; cbn; constructor; auto; exact (IH r). Qed.
Lemma named_nth h r c : named h -> nth_error h r = Some c -> cell_ok c.
Proof. intros H E. unfold named in H. rewrite Forall_forall in H. exact (H _ (nth_error_In _ _ E)). Qed.

(** [m] keeps the names, its result has [Q] and its message is UTF-8. *)
Section Tri.
Context {T : Type} (heap_of : T -> heap).
Definition tri {A} (m : Logic.M T A) (Q : A -> Prop) : Prop :=
  forall s, named (heap_of s) -> match m s with Ok (a, s') => named (heap_of s') /\ Q a | Panic (PString msg) => utf8 msg | _ => True end.
Lemma tri_ret {A} (a : A) (Q : A -> Prop) : Q a -> tri (ret a) Q.
Proof. intros H s N. split; assumption. Qed.
Lemma tri_bind {A B} (m : Logic.M T A) (f : A -> Logic.M T B) (Q : A -> Prop) (R : B -> Prop) :
  tri m Q -> (forall a, Q a -> tri (f a) R) -> tri (mbind m f) R.
Proof.
  intros H G s N. unfold mbind. specialize (H s N). destruct (m s) as [[a s']|[msg|]|]; try exact I; [|exact H]. destruct H as [N' H]. exact (G a H s' N').
Qed.
Lemma tri_lift {A} (r : res A) (Q : A -> Prop) : mild r -> (forall a, r = Ok a -> Q a) -> tri (lift r) Q.
Proof. intros M H s N. unfold lift. destruct r as [a|[msg|]|]; cbn; auto. Qed.
Lemma tri_panic {A} msg (Q : A -> Prop) : utf8 msg -> tri (panic msg) Q.
Proof. intros M s N. exact M. Qed.
Lemma tri_crash {A} (Q : A -> Prop) : tri crash Q.
Proof. intros s N. exact I. Qed.
Lemma tri_fuel {A} (Q : A -> Prop) : tri out_of_fuel Q.
Proof. intros s N. exact I. Qed.
Lemma tri_weaken {A} (m : Logic.M T A) (Q R : A -> Prop) : tri m Q -> (forall a, Q a -> R a) -> tri m R.
Proof. intros H G s N. specialize (H s N). destruct (m s) as [[a s']|[msg|]|]; try exact I; [|exact H]. destruct H. auto. Qed.
End Tri.

(** ** Words *)

Definition finew (w : word) : Prop := utf8 (w_t w).
Definition finewo (o : option word) : Prop := match o with Some w => finew w | None => True end.
Lemma wwords_self w : In w (wwords w).
Proof. destruct w. left. reflexivity. Qed.
Lemma connector_mild w : finew w -> mild (connector U w).
Proof. intros F. unfold connector. repeat destruct (has_text U w _); try exact I; cbn [mild]; unfold finew in F; u8. Qed.
Lemma po_mild w : finew w -> mild (po_pred U w).
Proof. intros F. unfold po_pred. repeat destruct (has_text U w _); try exact I; cbn [mild]; unfold finew in F; u8. Qed.
Lemma mi_mild w : finew w -> mild (mi_pred U w).
Proof. intros F. unfold mi_pred. repeat destruct (has_text U w _); try exact I; cbn [mild]; unfold finew in F; u8. Qed.
Lemma go_mild w : finew w -> mild (go_pos U w).
Proof. intros F. unfold go_pos. repeat destruct (has_text U w _); try exact I; cbn [mild]; unfold finew in F; u8. Qed.
Lemma quantifier_mild o : finewo o -> mild (quantifier U o).
Proof. intros F. destruct o as [w|]; [|exact I]. cbn [quantifier finewo] in *. repeat destruct (has_text U w _); try exact I; cbn [mild]; unfold finew in F; u8. Qed.
Lemma order_mild {A} (a : list (A * nat)) : mild (order_arguments a).
Proof.
  apply quiet_mild. unfold order_arguments. generalize (place_linked a (repeat None (nargs a))). induction a as [|[x [|k]] a IH]; intros l; cbn [place_unlinked]; [exact I| |apply IH].
  apply quiet_bind; [|intros; apply IH]. clear. induction l as [|[y|] l IH]; cbn [next_empty]; [exact I| |exact I]. apply quiet_bind; [exact IH|intros; exact I].
Qed.
Lemma go_type_utf8 n : utf8 (go_type n).
Proof. destruct n; try destruct k; match goal with |- utf8 ?s => let t := eval cbv in s in change (utf8 t); lit t end. Qed.

(** ** Interpreting *)

Notation "'KEEP' m" := (tri s_heap m (fun _ => True)) (at level 10, m at level 9).

Lemma k_alloc c : cell_ok c -> KEEP (alloc c).
Proof. intros C s N. split; [|exact I]. cbn. apply named_app; assumption. Qed.
Lemma k_set r c : cell_ok c -> KEEP (set r c).
Proof. intros C s N. split; [|exact I]. cbn. apply named_set; assumption. Qed.
Lemma k_get r : tri s_heap (get r) cell_ok.
Proof. intros s N. unfold get. destruct (nth_error _ _) eqn:E; [|exact I]. split; [exact N|exact (named_nth _ _ _ N E)]. Qed.
Lemma k_get_binding r : KEEP (get_binding r).
Proof. eapply tri_bind; [apply k_get|]. intros c C. destruct c; try apply tri_crash. apply tri_ret, I. Qed.
Lemma k_set_binding r b : KEEP (set_binding r b).
Proof. apply k_set, I. Qed.
Lemma k_set_restriction r x : KEEP (set_restriction r x).
Proof. eapply tri_bind; [apply k_get_binding|]. intros. apply k_set_binding. Qed.
Lemma k_set_scope r x : KEEP (set_scope r x).
Proof. eapply tri_bind; [apply k_get_binding|]. intros. apply k_set_binding. Qed.
Lemma k_set_quantifier r x : KEEP (set_quantifier r x).
Proof. eapply tri_bind; [apply k_get_binding|]. intros. apply k_set_binding. Qed.
Lemma k_set_focus r : KEEP (set_focus r).
Proof. eapply tri_bind; [apply k_get_binding|]. intros. apply k_set_binding. Qed.
Ltac same := intros s N; (split; [exact N|exact I]).
Lemma k_new_var : KEEP new_var. Proof. same. Qed.
Lemma k_set_hoa l : KEEP (set_hoa l). Proof. same. Qed.
Lemma k_hoa_scope : KEEP hoa_scope. Proof. same. Qed.
Lemma k_push_hoa r : KEEP (push_hoa r). Proof. same. Qed.
Lemma k_pop_hoa : KEEP pop_hoa. Proof. same. Qed.
Lemma k_add_the r : KEEP (add_the r). Proof. same. Qed.
Lemma k_the_scope : KEEP the_scope. Proof. same. Qed.
Lemma k_hi_scope : KEEP hi_scope. Proof. same. Qed.
Lemma k_set_hi l : KEEP (set_hi l). Proof. same. Qed.
Lemma k_lifted k : KEEP (lifted k). Proof. same. Qed.
Lemma k_set_lifted k r : KEEP (set_lifted k r). Proof. same. Qed.
Lemma k_var_scope : KEEP var_scope. Proof. same. Qed.
Lemma k_set_vars l : KEEP (set_vars l). Proof. same. Qed.
Lemma k_push_var v d : KEEP (push_var v d). Proof. same. Qed.
Lemma k_lookup_var v : KEEP (lookup_var v).
Proof.
  intros s N. unfold lookup_var. destruct (find _ _) as [[? d]|].
  - assert (K : KEEP (mbind (get_binding d) (fun b => ret (b_n b, Some d)))) by (eapply tri_bind; [apply k_get_binding|intros; apply tri_ret, I]). exact (K s N).
  - split; [exact N|exact I].
Qed.
Lemma k_assert l n : tri s_heap (assert l n) (fun n' => n' = n).
Proof. unfold assert. destruct (among l n); [apply tri_ret; reflexivity|apply tri_crash]. Qed.
Lemma k_asserted {A} l n (f : node -> Interp.M A) Q : tri s_heap (f n) Q -> tri s_heap (mbind (assert l n) f) Q.
Proof. intros H. eapply tri_bind; [apply k_assert|]. intros ? ->. exact H. Qed.
Lemma k_with_vars {A} (m : Interp.M A) Q : tri s_heap m Q -> tri s_heap (with_vars m) Q.
Proof.
  intros H. eapply tri_bind; [apply k_var_scope|]. intros vs _. eapply tri_bind; [exact H|]. intros a Qa.
  eapply tri_bind; [apply k_set_vars|]. intros. apply tri_ret, Qa.
Qed.

Variable ol : list (N * N).
Variable vf : nat.

Lemma k_bind_scope_fuel : forall f b x, KEEP (bind_scope_fuel f b x).
Proof.
  induction f as [|f IH]; intros b x; [apply tri_fuel|]. cbn [bind_scope_fuel]. eapply tri_bind; [apply k_get_binding|]. intros c _. destruct (b_scope c).
  - eapply tri_bind; [apply IH|]. intros. eapply tri_bind; [apply k_set_scope|]. intros. apply tri_ret, I.
  - eapply tri_bind; [apply k_set_scope|]. intros. apply tri_ret, I.
Qed.
Lemma k_bind_scope b x : KEEP (bind_scope vf b x).
Proof. destruct b; [apply k_bind_scope_fuel|apply tri_ret, I]. Qed.
Lemma free_scan_quiet h : forall l b f, quiet (free_scan h l b f).
Proof.
  induction l as [|r l IH]; intros b f; cbn [free_scan]; [exact I|]. destruct (nth_error h r) as [[]|]; try apply IH. destruct def as [d|]; [|apply IH].
  destruct (nth_error h d) as [[]|]; try exact I. apply IH.
Qed.
Lemma k_has_free_vars r : KEEP (has_free_vars vf r).
Proof.
  intros s N. unfold has_free_vars. assert (V := visited_quiet (s_heap s) vf r). destruct (visited _ _ _) as [l|[m|]|]; cbn [bind quiet] in *; try exact I; [|contradiction].
  assert (W := free_scan_quiet (s_heap s) l [] false). destruct (free_scan _ _ _ _) as [b|[m|]|]; cbn [bind quiet] in *; try exact I; [|contradiction]. split; [exact N|exact I].
Qed.
Lemma k_clear_vars scope : forall l, KEEP (clear_vars scope l).
Proof.
  induction l as [|r l IH]; [apply tri_ret, I|]. cbn [clear_vars]. eapply tri_bind; [apply k_get|]. intros c _. destruct c; try exact IH.
  destruct (match def with Some x => memb x scope | None => false end); [exact IH|]. eapply tri_bind; [apply k_new_var|]. intros x _. eapply tri_bind; [apply k_set, I|]. intros. exact IH.
Qed.
Lemma k_clear scope hi : KEEP (clear_hi_free_var_defs vf scope hi).
Proof. intros s N. unfold clear_hi_free_var_defs. assert (V := visited_quiet (s_heap s) vf hi). destruct (visited _ _ _) as [l|[m|]|]; cbn [bind quiet] in *; try exact I; [|contradiction]. exact (k_clear_vars scope l s N). Qed.
Lemma k_bind_his : forall his scope x, KEEP (bind_his vf scope his x).
Proof.
  induction his as [|h his IH]; intros scope x; [apply tri_ret, I|]. cbn [bind_his]. eapply tri_bind; [apply k_clear|]. intros. eapply tri_bind; [apply k_bind_scope|]. intros. apply IH.
Qed.

Ltac say := repeat first [apply go_type_utf8 | assumption | match goal with H : finew ?w |- utf8 (w_t ?w) => exact H end
  | match goal with |- utf8 (_ ++ _)%string => apply utf8_app end | match goal with |- utf8 (String ?a ?t) => (lit (String a t)) end].
Ltac kstep :=
  match goal with
  | |- tri _ (let _ := _ in _) _ => cbv zeta
  | |- tri _ (mbind (ret _) _) _ => eapply tri_bind; [apply tri_ret; exact I|]
  | |- tri _ (mbind (assert _ _) _) _ => apply k_asserted
  | |- tri _ (mbind _ _) _ => eapply tri_bind
  | |- tri _ (ret _) _ => apply tri_ret
  | |- tri _ (panic _) _ => apply tri_panic; say
  | |- tri _ crash _ => apply tri_crash
  | |- tri _ (alloc _) _ => apply k_alloc
  | |- tri _ (set _ _) _ => apply k_set
  | |- tri _ (get_binding _) _ => apply k_get_binding
  | |- tri _ (set_restriction _ _) _ => apply k_set_restriction
  | |- tri _ (set_scope _ _) _ => apply k_set_scope
  | |- tri _ (set_quantifier _ _) _ => apply k_set_quantifier
  | |- tri _ (set_binding _ _) _ => apply k_set_binding
  | |- tri _ (set_focus _) _ => apply k_set_focus
  | |- tri _ new_var _ => apply k_new_var
  | |- tri _ hoa_scope _ => apply k_hoa_scope
  | |- tri _ (push_hoa _) _ => apply k_push_hoa
  | |- tri _ pop_hoa _ => apply k_pop_hoa
  | |- tri _ (add_the _) _ => apply k_add_the
  | |- tri _ hi_scope _ => apply k_hi_scope
  | |- tri _ (set_hi _) _ => apply k_set_hi
  | |- tri _ (lifted _) _ => apply k_lifted
  | |- tri _ (set_lifted _ _) _ => apply k_set_lifted
  | |- tri _ var_scope _ => apply k_var_scope
  | |- tri _ (push_var _ _) _ => apply k_push_var
  | |- tri _ (lookup_var _) _ => apply k_lookup_var
  | |- tri _ (assert _ _) _ => apply k_assert
  | |- tri _ (bind_scope _ _ _) _ => apply k_bind_scope
  | |- tri _ (has_free_vars _ _) _ => apply k_has_free_vars
  | |- tri _ (bind_his _ _ _ _) _ => apply k_bind_his
  | |- tri _ (with_vars _) _ => apply k_with_vars
  | |- tri _ (lift (order_arguments _)) _ => apply (tri_lift s_heap _ (fun _ => True)); [apply order_mild|intros; exact I]
  | H : finew ?w |- tri _ (lift (connector _ ?w)) _ => apply (tri_lift s_heap _ (fun _ => True)); [exact (connector_mild _ H)|intros; exact I]
  | H : finewo ?w |- tri _ (lift (quantifier _ ?w)) _ => apply (tri_lift s_heap _ (fun _ => True)); [exact (quantifier_mild _ H)|intros; exact I]
  | |- forall _, _ => intro
  | |- cell_ok (CPred _) => cbn [cell_ok]; first [assumption|solve [say]]
  | |- cell_ok _ => exact I
  | |- True => exact I
  end.
Ltac ks := repeat kstep.

Lemma k_distribute p a : KEEP (distribute_predication p a).
Proof. induction p; cbn [distribute_predication]; ks; eassumption. Qed.
Lemma k_serial_right l r : KEEP (serial_right l r).
Proof. induction r; cbn [serial_right]; ks; eassumption. Qed.
Lemma k_serial_left l r : KEEP (serial_left l r).
Proof. induction l; cbn [serial_left]; ks; try eassumption. apply k_serial_right. Qed.
Lemma k_make_lambda p a : KEEP (make_lambda p a).
Proof. unfold make_lambda. ks. Qed.
Lemma k_content x : KEEP (make_content_pred x).
Proof. unfold make_content_pred. ks. apply k_make_lambda. Qed.
Lemma k_new_binding q f : KEEP (new_binding q f).
Proof. unfold new_binding. ks. Qed.
Lemma k_restrict b a x : KEEP (restrict_content b a x).
Proof. unfold restrict_content. ks. apply k_content. Qed.
Lemma k_subordinate m : KEEP m -> KEEP (subordinate vf m).
Proof. intros H. unfold subordinate. ks. exact H. Qed.

Lemma word_pred_utf8 s : utf8 (word_pred U s).
Proof.
  unfold word_pred. cbv zeta. destruct (String.eqb _ "mea"); [say|]. destruct (String.eqb _ "jeqtu"); [say|]. apply utf8_of.
Qed.
Lemma chunks_utf8 : forall n s, utf8 s -> Forall utf8 (map snd (chunks n s)).
Proof.
  induction n as [|n IH]; intros s V; [constructor|]. cbn [chunks]. destruct s as [|a s]; [constructor|]. destruct (utf8_first _ V) as [A B].
  destruct (decode_rune (String a s)) as [r w]. cbn [snd] in A, B. cbn [map snd]. constructor; [exact A|exact (IH _ B)].
Qed.
Lemma trim_utf8 s : utf8 s -> utf8 (trim_space U s).
Proof.
  intros V. unfold trim_space. apply utf8_concat. assert (C := chunks_utf8 (String.length s) s V). set (c := chunks _ _) in *. clearbody c.
  assert (D : forall c : list (N * string), Forall utf8 (map snd c) -> Forall utf8 (map snd (drop_space U c))).
  { clear. induction c as [|x c IH]; intros F; cbn [drop_space map] in *; [constructor|]. inversion F; subst. destruct (u_space U (fst x)); [auto|exact F]. }
  assert (R : forall c : list (N * string), Forall utf8 (map snd c) -> Forall utf8 (map snd (rev c))).
  { clear. intros c F. rewrite map_rev. apply Forall_rev, F. }
  apply R, D, R, D, C.
Qed.
Lemma to_string_utf8 n : clear_words (words n) -> utf8 (to_string U n).
Proof.
  intros C. unfold to_string. apply trim_utf8. assert (E := to_text_words n). unfold to_text in E. rewrite E. apply utf8_concat, Forall_forall.
  intros s I. apply in_map_iff in I. destruct I as (w & <- & I). exact (C w I).
Qed.

(** The words of [n] are UTF-8. *)
Definition fine (n : node) : Prop := clear_words (words n).
Definition fines (l : list node) : Prop := forall n, In n l -> fine n.
Definition fine0 (a : arg0) : Prop := match a with AVar _ => True | ATail _ st bi ts => fine st /\ fines ts end.
Definition fineo (o : option node) : Prop := match o with Some n => fine n | None => True end.
Definition call_ok {A} (c : call A) : Prop :=
  match c with
  | KSentence n | KSubordinate n | KStatement _ n | KPredicate n | KPoArgument _ _ n | KAdverb n _ | KRelative _ n => fine n
  | KPrenex _ st bi ts => fine st /\ fines ts
  | KPreposition n a0 => fine n /\ fine0 a0
  | KPredPreposition p a0 a1 => fine p /\ fine0 a0 /\ fine a1
  | KRoi l r | KRoiLeft _ l r => fine l /\ fine r
  | KRoiRight _ _ r => fine r
  | KPredArg _ q p rel => finewo q /\ fine p /\ fineo rel
  end.
Definition res_ok {A} (c : call A) : A -> Prop :=
  match c in call A return A -> Prop with
  | KPrenex _ _ _ _ => fun x => fines (snd x)
  | KPreposition _ _ => fun x => fines (snd x)
  | KPredPreposition _ _ _ => fun x => fines (snd x)
  | _ => fun _ => True
  end.


Lemma fines_flat l : clear_words (flat_map words l) -> fines l.
Proof. intros H n I s S. apply H, in_flat_map. eauto. Qed.
Lemma flat_fines l : fines l -> clear_words (flat_map words l).
Proof. intros H s S. apply in_flat_map in S. destruct S as (n & I & S). exact (H n I s S). Qed.
Lemma fines_nil : fines [].
Proof. intros n []. Qed.
Lemma fines_cons n l : fine n -> fines l -> fines (n :: l).
Proof. intros F G x [<-|I]; auto. Qed.
Lemma fines_app l l' : fines l -> fines l' -> fines (l ++ l').
Proof. intros F G n I. apply in_app_or in I. destruct I; auto. Qed.
Lemma fines_head n l : fines (n :: l) -> fine n.
Proof. intros F. apply F. left. reflexivity. Qed.
Lemma fines_tail n l : fines (n :: l) -> fines l.
Proof. intros F x I. apply F. right. exact I. Qed.
Lemma fines_tl l : fines l -> fines (tl l).
Proof. destruct l; [auto|apply fines_tail]. Qed.

Lemma clear_self w : clear_words (wwords w) -> finew w.
Proof. intros H. exact (H w (wwords_self w)). Qed.
Lemma clear_wo o : clear_words (olist wwords o) -> finewo o.
Proof. destruct o; [apply clear_self|intros; exact I]. Qed.
Lemma clear_o o : clear_words (olist words o) -> fineo o.
Proof. destruct o; [intros H; exact H|intros; exact I]. Qed.
Lemma clear_nil : clear_words [].
Proof. intros w []. Qed.
Lemma fine_cop k t t1 ru l r : fine (NCoP k t t1 ru l r) -> finew ru /\ fine l /\ fine r.
Proof. unfold fine. destruct t; cbn [words]; rewrite !clear_app; intros H; repeat match goal with H : _ /\ _ |- _ => destruct H end; auto using clear_self. Qed.
Lemma fine_linked go a b : fine (NLinked go a) -> fine b -> fine (NLinked go b).
Proof. unfold fine. cbn [words]. rewrite !clear_app. tauto. Qed.
Lemma fine_argument f q p rel : fine (NPredArg f q p rel) -> finewo q /\ fine p /\ fineo rel.
Proof. unfold fine. cbn [words]. rewrite !clear_app. intros (_ & A & B & C). auto using clear_wo, clear_o. Qed.
Lemma fine_mi mi ga p : fine (NMi mi ga p) -> finew mi /\ fine p.
Proof. unfold fine. cbn [words]. rewrite !clear_app. intros (A & B & _). auto using clear_self. Qed.
Lemma fine_po po ga a : fine (NPo po ga a) -> finew po /\ fine a.
Proof. unfold fine. cbn [words]. rewrite !clear_app. intros (A & B & _). auto using clear_self. Qed.

Section Body.
Variable self : forall A, call A -> Interp.M A.
Arguments self {A} _.
Hypothesis S : forall A (c : call A), call_ok c -> tri s_heap (self c) (res_ok c).

Lemma k_self {A} (c : call A) : call_ok c -> KEEP (self c).
Proof. intros C. eapply tri_weaken; [apply S, C|]. auto. Qed.


Ltac sub_fine :=
  match goal with
  | |- fine _ => assumption
  | |- fineo (Some _) => change (fine _); sub_fine
  | |- fineo None => exact I
  | |- fines [] => apply fines_nil
  | |- fines (_ :: _) => apply fines_cons; sub_fine
  | |- fines (_ ++ _) => apply fines_app; sub_fine
  | |- fines (prepend _ _) => apply fines_app; sub_fine
  | |- fines (tl _) => apply fines_tl; sub_fine
  | |- fines _ => assumption
  | H : fine (NLinked ?g _) |- fine (NLinked ?g _) => refine (fine_linked _ _ _ H _); sub_fine
  | H : fine ?n |- fine ?m => let s := fresh in let I := fresh in intros s I; apply H; cbn [words olist]; rewrite ?in_app_iff; tauto
  | H : fine (NTerms ?l) |- fines ?l => apply fines_flat; exact H
  | |- _ /\ _ => split; sub_fine
  | |- True => exact I
  | |- _ => assumption
  end.
Ltac go :=
  repeat first [kstep | apply k_self; cbn [call_ok]; sub_fine ].
Ltac call := first [apply k_self; cbn [call_ok]; sub_fine | eapply tri_weaken; [apply S; cbn [call_ok]; sub_fine|cbn [res_ok]; intros]].


Lemma k_sentence n : fine n -> KEEP (do_sentence U (@self) n).
Proof.
  intros F. destruct n; try (apply tri_panic; say); cbn [do_sentence].
  - call.
  - apply fine_cop in F. destruct F as (W & A & B). destruct k; try (apply tri_panic; say). destruct (negb _); [apply tri_panic; say|]. go.
Qed.
Lemma k_predication p a : fine p -> KEEP (predication (@self) p a).
Proof. intros F. unfold predication. go. apply k_distribute. Qed.
Lemma k_make_predication p l : fine p -> KEEP (make_predication (@self) p l).
Proof. intros F. apply k_predication, F. Qed.

Lemma k_statement a n : fine n -> KEEP (do_statement U (@self) a n).
Proof.
  intros F. apply k_with_vars. destruct n; try (apply tri_panic; say).
  - destruct n1; try (apply tri_panic; say). eapply tri_bind.
    + unfold fine in F. cbn [words] in F. rewrite !clear_app in F. destruct F as [[A _] B]. apply k_self. cbn [call_ok]. split; [exact B|]. apply fines_flat, A.
    + intros [x ?] _. apply tri_ret, I.
  - destruct ts as [ts|].
    + apply k_self. cbn [call_ok]. unfold fine in *. cbn [words olist wwords] in *. rewrite !clear_app in *. destruct F as (A & B & C). repeat split; auto using clear_nil.
      intros w [<-|[]]. cbn [w_t]. say.
    + apply k_predication. sub_fine.
  - apply fine_cop in F. destruct F as (W & A & B). destruct k; try (apply tri_panic; say). go.
Qed.
Lemma k_po_predicate po arg : finew po -> fine arg -> KEEP (po_predicate U (@self) po arg).
Proof.
  intros W F. unfold po_predicate. eapply tri_bind.
  - apply (tri_lift s_heap _ utf8); [exact (po_mild _ W)|]. intros x E. unfold po_pred in E. destruct (has_text U po "po"); [injection E as <-; say|]. destruct (has_text U po "jei"); [injection E as <-; say|discriminate].
  - intros x Px. go.
Qed.
Lemma k_predicate n : fine n -> KEEP (do_predicate U ol vf (@self) n).
Proof.
  intros F. destruct n; try (apply tri_panic; say); cbn [do_predicate].
  - (* serial *) go. apply k_serial_left.
  - destruct (is_variable U ol (NWordPredicate w)) as [v|].
    + eapply tri_bind; [apply k_lookup_var|]. intros [x d] _. go.
    + destruct (is_hoa U (NWordPredicate w)).
      * eapply tri_bind; [apply k_hoa_scope|]. intros [|d l] _; go.
      * eapply tri_bind; [apply k_alloc|]; [|go]. cbn [cell_ok]. apply word_pred_utf8.
  - (* mi *) apply fine_mi in F. destruct F as [W F]. eapply tri_bind; [apply k_alloc; apply to_string_utf8, F|]. intros q _. eapply tri_bind; [apply (tri_lift s_heap _ (fun _ => True)); [exact (mi_mild _ W)|intros; exact I]|]. intros m _.
    eapply tri_bind with (Q := fun _ => True); [destruct m; go|]. intros p _. eapply tri_bind; [apply k_make_lambda|]. go.
  - (* po *) apply fine_po in F. destruct F as [W F]. eapply tri_bind; [apply k_po_predicate; assumption|]. go.
  - (* mo *) eapply tri_bind; [apply k_alloc; cbn [cell_ok]; say|]. intros p _. eapply tri_bind; [apply k_alloc; apply to_string_utf8; change (fine (NDiscourse d)); sub_fine|]. go. apply k_make_lambda.
  - (* pred content *) go. apply k_content.
  - apply fine_cop in F. destruct F as (W & A & B). destruct k; try (apply tri_panic; say).
    all: go.
  - destruct k; try (apply tri_panic; say).
    + destruct (LogicWords.has_text U lu "lu"); go.
    + go. apply k_content.
Qed.

Lemma k_argument_case {A} n unknown (one : option ref -> ref -> Interp.M A) two (Q : A -> Prop) : fine n ->
  (forall b a, tri s_heap (one b a) Q) -> (forall ru l r, finew ru -> fine l -> fine r -> tri s_heap (two ru l r) Q) -> utf8 unknown ->
  tri s_heap (argument_case U (@self) n unknown one two) Q.
Proof.
  intros F O W V. destruct n; try (apply tri_panic; say); cbn [argument_case].
  - eapply tri_bind; [apply k_self|intros [b a] _; apply O]. exact (fine_argument _ _ _ _ F).
  - apply fine_cop in F. destruct F as (Wr & F1 & F2). destruct k; try (apply tri_panic; say). destruct (LogicWords.has_text U ru "roi").
    + eapply tri_bind; [apply k_self|intros [b a] _; apply O]. cbn [call_ok]. split; sub_fine.
    + apply W; sub_fine.
Qed.
Lemma k_po_argument p a0 a1 : fine a1 -> KEEP (po_argument U vf (@self) p a0 a1).
Proof. intros F. apply k_with_vars, k_argument_case; [exact F|intros; go|intros; go|say]. Qed.

Lemma k_prenex_call a st bi ts : fine st -> fines ts -> tri s_heap (self (KPrenex a st bi ts)) (fun x => fines (snd x)).
Proof. intros F G. exact (S _ (KPrenex a st bi ts) (conj F G)). Qed.
Lemma k_preposition_call n a0 : fine n -> fine0 a0 -> tri s_heap (self (KPreposition n a0)) (fun x => fines (snd x)).
Proof. intros F G. exact (S _ (KPreposition n a0) (conj F G)). Qed.
Lemma k_pred_preposition_call p a0 a1 : fine p -> fine0 a0 -> fine a1 -> tri s_heap (self (KPredPreposition p a0 a1)) (fun x => fines (snd x)).
Proof. intros F G H. exact (S _ (KPredPreposition p a0 a1) (conj F (conj G H))). Qed.

Ltac prenex := eapply tri_bind; [apply k_prenex_call; sub_fine|cbn [snd]; intros [? ?] ?; cbn [snd] in *].
Ltac done_ := apply tri_ret; cbn [snd]; sub_fine.
Lemma k_prenex a st bi ts : fine st -> fines ts -> tri s_heap (prenex_statement U vf (@self) a st bi ts) (fun x => fines (snd x)).
Proof.
  intros F G. apply k_with_vars. destruct ts as [|t rest].
  - eapply tri_bind; [call|]. intros. apply tri_ret. apply fines_nil.
  - assert (Ft := fines_head _ _ G). assert (Fr := fines_tail _ _ G).
    assert (Prep : tri s_heap (do '(sub, rest') <- self (KPrenex a st bi rest) ; do free <- has_free_vars vf sub ;
            if (free : bool) then
              do '(z, rest'') <- self (KPreposition t (ATail a st bi rest')) ;
              ret (z, t :: rest'')
            else
              do '(b, x) <- new_binding QThe false ;
              do _ <- restrict_content b x sub ;
              do _ <- add_the b ;
              do '(z, _) <- self (KPreposition t (AVar x)) ;
              ret (z, t :: rest')) (fun x => fines (snd x))).
    { prenex. eapply tri_bind; [apply k_has_free_vars|]. intros [|] _.
      - eapply tri_bind; [apply k_preposition_call; [sub_fine|cbn [fine0]; sub_fine]|]. intros [? ?] ?; cbn [snd] in *. done_.
      - eapply tri_bind; [apply k_new_binding|]. intros [b x] _. eapply tri_bind; [apply k_restrict|]. intros _ _.
        eapply tri_bind; [apply k_add_the|]. intros _ _. eapply tri_bind; [apply k_preposition_call; [sub_fine|exact I]|]. intros [? ?] ?. done_. }
    assert (Adv : tri s_heap (do '(sub, rest') <- self (KPrenex a st bi rest) ;
            do '(b, x) <- new_binding QUnset false ;
            do _ <- restrict_content b x sub ;
            do free <- has_free_vars vf sub ;
            if (free : bool) then
              do _ <- set_quantifier b QAll ;
              do s <- self (KAdverb t x) ;
              do z <- bind_scope vf (Some b) s ;
              ret (z, t :: rest')
            else
              do _ <- set_quantifier b QThe ;
              do _ <- add_the b ;
              do z <- self (KAdverb t x) ;
              ret (z, t :: rest')) (fun x => fines (snd x))).
    { prenex. eapply tri_bind; [apply k_new_binding|]. intros [b x] _. eapply tri_bind; [apply k_restrict|]. intros _ _.
      eapply tri_bind; [apply k_has_free_vars|]. intros [|] _; go; cbn [snd]; sub_fine. }
    destruct t; try (apply tri_panic; say).
    + (* linked *) apply k_argument_case; [sub_fine| | |say].
      * intros b x. assert (Wg : finew go) by (apply clear_self; intros w W; apply Ft; cbn [words]; apply in_or_app; auto). eapply tri_bind; [apply (tri_lift s_heap _ (fun _ => True)); [exact (go_mild _ Wg)|intros; exact I]|]. intros pos _. prenex. eapply tri_bind; [apply k_bind_scope|]. intros. done_.
      * intros ru l r Wru Fl Frr. apply k_asserted, k_asserted. eapply tri_bind; [kstep|]. intros c _.
        prenex. prenex. eapply tri_bind; [apply k_alloc, I|]. intros. done_.
    + (* argument *) eapply tri_bind; [apply k_self|].
      { exact (fine_argument _ _ _ _ Ft). }
      intros [b x] _. eapply tri_bind with (Q := fun _ => True); [destruct b; [destruct (_ && _)|]; go|]. intros _ _. prenex.
      eapply tri_bind; [apply k_bind_scope|]. intros. done_.
    + exact Adv.
    + exact Prep.
    + assert (FF := fine_cop _ _ _ _ _ _ Ft). destruct FF as (W & FA & FB). destruct k; try (apply tri_panic; say); try exact Adv; try exact Prep.
      * destruct t1; try apply tri_crash. destruct t2; try apply tri_crash.
        eapply tri_bind; [kstep|]. intros c _.
        assert (F1 : fines ts) by (apply fines_flat; exact FA).
        assert (F2 : fines ts0) by (apply fines_flat; exact FB).
        prenex. prenex. eapply tri_bind; [apply k_alloc, I|]. intros. done_.
      * destruct (LogicWords.has_text U ru "roi").
        -- eapply tri_bind; [apply k_self; cbn [call_ok]; split; sub_fine|]. intros [b x] _. prenex. eapply tri_bind; [apply k_bind_scope|]. intros. done_.
        -- apply k_asserted, k_asserted. eapply tri_bind; [kstep|]. intros c _.
           eapply tri_bind; [apply k_prenex_call; [sub_fine|apply fines_cons; sub_fine]|]. intros [x t1'] ?. cbn [snd] in *.
           eapply tri_bind; [apply k_prenex_call; [sub_fine|apply fines_cons; sub_fine]|]. intros [y t2'] ?. cbn [snd] in *.
           eapply tri_bind; [apply k_alloc, I|]. intros. done_.
Qed.

Lemma fine0_terms a0 ts : fine0 a0 -> fines ts -> fine0 (with_terms a0 ts).
Proof. destruct a0; cbn; tauto. Qed.
Lemma k_preposition n a0 : fine n -> fine0 a0 -> tri s_heap (do_preposition U (@self) n a0) (fun x => fines (snd x)).
Proof.
  intros F G. apply k_with_vars. destruct n; try (apply tri_panic; say).
  - apply k_pred_preposition_call; sub_fine.
  - apply fine_cop in F. destruct F as (W & A & B). destruct k; try (apply tri_panic; say). eapply tri_bind; [kstep|]. intros c _.
    apply k_asserted. eapply tri_bind; [apply k_preposition_call; sub_fine|]. intros [x ts1] ?. cbn [snd] in *.
    apply k_asserted. eapply tri_bind; [apply k_preposition_call; [sub_fine|apply fine0_terms; assumption]|]. intros [y ts2] ?. cbn [snd] in *.
    eapply tri_bind; [apply k_alloc, I|]. intros. done_.
Qed.
Lemma k_pred_preposition p a0 a1 : fine p -> fine0 a0 -> fine a1 -> tri s_heap (pred_preposition U vf (@self) p a0 a1) (fun x => fines (snd x)).
Proof.
  intros F G H. apply k_with_vars, k_argument_case; [exact H| | |say].
  - intros b a. destruct a0 as [v|args0 st bi ts].
    + eapply tri_bind; [apply k_make_predication, F|]. intros. eapply tri_bind; [apply k_bind_scope|]. intros. done_.
    + destruct G as [G1 G2]. prenex. eapply tri_bind; [apply k_new_binding|]. intros [b1 x] _. eapply tri_bind; [apply k_restrict|]. intros _ _.
      eapply tri_bind; [apply k_make_predication, F|]. intros. eapply tri_bind; [apply k_bind_scope|]. intros. eapply tri_bind; [apply k_bind_scope|]. intros. done_.
  - intros ru l r W Fl Fr. eapply tri_bind; [kstep|]. intros c _.
    apply k_asserted. eapply tri_bind; [apply k_pred_preposition_call; sub_fine|]. intros [x ts1] ?. cbn [snd] in *.
    apply k_asserted. eapply tri_bind; [apply k_pred_preposition_call; [sub_fine|apply fine0_terms; assumption|sub_fine]|]. intros [y ts2] ?. cbn [snd] in *.
    eapply tri_bind; [apply k_alloc, I|]. intros. done_.
Qed.
Lemma k_adverb n a : fine n -> KEEP (do_adverb U (@self) n a).
Proof.
  intros F. apply k_with_vars. destruct n; try (apply tri_panic; say).
  - apply k_make_predication. sub_fine.
  - apply fine_cop in F. destruct F as (W & A & B). destruct k; try (apply tri_panic; say). go.
Qed.
Lemma k_roi l r : fine l -> fine r -> KEEP (do_roi (@self) l r).
Proof. intros F G. unfold do_roi. eapply tri_bind; [apply k_new_binding|]. intros [b a] _. go. Qed.
Lemma k_roi_left x l r : fine l -> fine r -> KEEP (roi_left U vf (@self) x l r).
Proof. intros F G. apply k_argument_case; [exact F|intros; go|intros; go|say]. Qed.
Lemma k_roi_right x l r : fine r -> KEEP (roi_right U vf (@self) x l r).
Proof. intros F. apply k_argument_case; [exact F|intros; go|intros; go|say]. Qed.
Lemma k_relative_set b rel : fine rel -> KEEP (do r <- self (KRelative (Some b) rel) ; set_restriction b r).
Proof. intros F. go. Qed.
Lemma k_var_argument v q rel : finewo q -> fineo rel -> KEEP (var_argument U (@self) v q rel).
Proof.
  intros W F. unfold var_argument. destruct q as [q|].
  - go. destruct rel; [apply k_relative_set, F|go].
  - eapply tri_bind; [apply k_lookup_var|]. intros [x d] _. eapply tri_bind; [apply k_alloc, I|]. intros ax _. destruct rel as [n|]; [|go].
    eapply tri_bind; [apply k_new_binding|]. intros [b ay] _. cbn [fineo] in F. go.
Qed.
Lemma k_hoa_argument q rel : fineo rel -> KEEP (hoa_argument (@self) q rel).
Proof.
  intros F. unfold hoa_argument. eapply tri_bind; [apply k_hoa_scope|]. intros [|d l] _; [go|].
  eapply tri_bind; [apply k_get_binding|]. intros c _. eapply tri_bind; [apply k_alloc, I|]. intros ax _.
  assert (G : KEEP (do '(b, ay) <- new_binding QAll false ;
          do among <- alloc (CPred "≺") ;
          do l <- alloc (CPredication among [Some ay; Some ax]) ;
          do _ <- set_restriction b l ;
          do _ <- match rel with
                  | Some n =>
                      do r <- self (KRelative (Some b) n) ;
                      do s <- alloc (CConnection KAnd l r) ;
                      set_restriction b s
                  | None => ret tt
                  end ;
          ret (Some b, ay))).
  { eapply tri_bind; [apply k_new_binding|]. intros [b ay] _. eapply tri_bind; [apply k_alloc; cbn [cell_ok]; say|]. intros am _. eapply tri_bind; [apply k_alloc, I|]. intros p _.
    eapply tri_bind; [apply k_set_restriction|]. intros _ _. eapply tri_bind with (Q := fun _ => True); [destruct rel; cbn [fineo] in F; go|]. go. }
  destruct q; [exact G|]. destruct rel; [exact G|]. go.
Qed.
Lemma k_predicate_argument f q p rel : finewo q -> fine p -> fineo rel -> KEEP (predicate_argument U ol vf (@self) f q p rel).
Proof.
  intros W F G. unfold predicate_argument. eapply tri_bind; [apply k_lifted|]. intros [b|] _; [go|]. destruct (is_variable U ol p); [apply k_var_argument; assumption|].
  destruct (is_hoa U p); [apply k_hoa_argument, G|]. eapply tri_bind; [kstep|]. intros qq _.
  eapply tri_bind; [apply k_new_binding|]. intros [b a] _. eapply tri_bind; [apply k_make_predication, F|]. intros s _. eapply tri_bind; [apply k_set_restriction|]. intros _ _.
  eapply tri_bind with (Q := fun _ => True); [destruct rel; cbn [fineo] in G; go|]. intros _ _. destruct qq; try solve [go].
  - eapply tri_bind; [apply k_has_free_vars|]. intros [|] _; go.
  - eapply tri_bind; [apply k_set_lifted|]. intros _ _. eapply tri_bind; [apply k_hi_scope|]. intros [|top hs] _; go.
Qed.
Lemma k_relative b n : fine n -> KEEP (relative_clause U (@self) b n).
Proof.
  intros F. apply k_with_vars. eapply tri_bind with (Q := fun _ => True); [destruct b; go|]. intros _ _.
  eapply tri_bind with (Q := fun _ => True).
  - destruct n; try (apply tri_panic; say); [go|apply fine_cop in F; destruct F as (W & A & B)|]; destruct k; try (apply tri_panic; say); go.
  - intros s _. eapply tri_bind with (Q := fun _ => True); [destruct b; go|]. go.
Qed.

Lemma k_body {A} (c : call A) : call_ok c -> tri s_heap (body U ol vf (@self) c) (res_ok c).
Proof.
  destruct c; cbn [call_ok res_ok body]; intros C; repeat match goal with H : _ /\ _ |- _ => destruct H end.
  - apply k_sentence; assumption.
  - apply k_subordinate, k_self; assumption.
  - apply k_statement; assumption.
  - apply k_predicate; assumption.
  - apply k_po_argument; assumption.
  - apply k_prenex; assumption.
  - apply k_preposition; assumption.
  - apply k_pred_preposition; assumption.
  - apply k_adverb; assumption.
  - apply k_roi; assumption.
  - apply k_roi_left; assumption.
  - apply k_roi_right; assumption.
  - apply k_predicate_argument; assumption.
  - apply k_relative; assumption.
Qed.

End Body.

Lemma k_run : forall fuel A (c : call A), call_ok c -> tri s_heap (run U ol vf fuel A c) (res_ok c).
Proof. induction fuel as [|f IH]; intros A c C; [apply tri_fuel|]. cbn [run]. apply k_body; [exact IH|exact C]. Qed.
Definition sfines (l : list node) : Prop := forall n, In n l -> is_sentence n = true -> fine n.
Lemma k_items fuel : forall l o, sfines l -> KEEP (all_items U ol vf fuel l o).
Proof.
  induction l as [|n l IH]; intros o F; [apply tri_ret, I|]. cbn [all_items].
  assert (Fl : sfines l) by (intros x X; apply F; right; exact X).
  destruct (is_fragment n); [apply IH, Fl|]. destruct (is_sentence n) eqn:J; [|apply tri_panic; say].
  eapply tri_bind; [exact (k_run fuel _ (KSentence n) (F n (or_introl eq_refl) J))|]. intros x _.
  destruct o; [|apply IH, Fl]. eapply tri_bind; [apply k_alloc, I|]. intros. apply IH, Fl.
Qed.
Lemma k_bind_all : forall l o, KEEP (bind_all vf l o).
Proof. induction l as [|b l IH]; intros o; [destruct o; apply tri_ret, I|]. cbn [bind_all]. destruct o; [|apply tri_crash]. eapply tri_bind; [apply k_bind_scope|]. intros. apply IH. Qed.
Lemma k_discourse fuel d : sfines d -> KEEP (discourse U ol vf fuel d).
Proof. intros F. eapply tri_bind; [apply k_items, F|]. intros. eapply tri_bind; [apply k_the_scope|]. intros. apply k_bind_all. Qed.

(** ** Simplifying *)

Notation "'SKEEP' m" := (tri Simplify.x_heap m (fun _ => True)) (at level 10, m at level 9).

Lemma x_get r : tri Simplify.x_heap (Simplify.get r) cell_ok.
Proof. intros s N. unfold Simplify.get. destruct (nth_error _ _) eqn:E; [|exact I]. split; [exact N|exact (named_nth _ _ _ N E)]. Qed.
Lemma x_set r c : cell_ok c -> SKEEP (Simplify.set r c).
Proof. intros C s N. split; [|exact I]. cbn. apply named_set; assumption. Qed.
Lemma x_alloc c : cell_ok c -> SKEEP (Simplify.alloc c).
Proof. intros C s N. split; [|exact I]. cbn. apply named_app; assumption. Qed.
Lemma x_substitute n a : SKEEP (Simplify.substitute n a).
Proof. intros s N. split; [exact N|exact I]. Qed.
Lemma x_substituted n : SKEEP (Simplify.substituted n).
Proof. intros s N. split; [exact N|exact I]. Qed.
Ltac xstep :=
  match goal with
  | |- tri _ (mbind (Simplify.get _) _) _ => eapply tri_bind; [apply x_get|intros ? _]
  | |- tri _ (mbind (Simplify.set _ _) _) _ => eapply tri_bind; [apply x_set; exact I|intros ? _]
  | |- tri _ (mbind (Simplify.alloc _) _) _ => eapply tri_bind; [apply x_alloc; exact I|intros ? _]
  | |- tri _ (mbind (Simplify.substitute _ _) _) _ => eapply tri_bind; [apply x_substitute|intros ? _]
  | |- tri _ (mbind (Simplify.substituted _) _) _ => eapply tri_bind; [apply x_substituted|intros ? _]
  | |- tri _ (mbind _ _) _ => eapply tri_bind with (Q := fun _ => True); [|intros ? _]
  | |- tri _ (ret _) _ => apply tri_ret; exact I
  | |- tri _ crash _ => apply tri_crash
  | |- tri _ (match ?x with _ => _ end) _ => destruct x
  | |- tri _ (if ?x then _ else _) _ => destruct x
  | H : _ |- tri _ _ _ => solve [apply H]
  end.
Ltac xs := repeat xstep.

Lemma x_used_args f : (forall r, SKEEP (f r)) -> forall l u, SKEEP (Simplify.used_args f l u).
Proof. intros H. induction l as [|[a|] l IH]; intros u; cbn [Simplify.used_args]; xs. Qed.
Lemma x_add_hoa : forall fuel r b, SKEEP (Simplify.add_hoa fuel r b).
Proof.
  induction fuel as [|f IH]; intros r b; [apply tri_fuel|]. cbn [Simplify.add_hoa]. 
  assert (UA := x_used_args (fun a => Simplify.add_hoa f a None) (fun r => IH r None)). xs.
Qed.
Lemma x_sub pv q rs : SKEEP (Simplify.sub pv q rs).
Proof. unfold Simplify.sub. xs. Qed.
Lemma x_bind_args : forall k l r, SKEEP (Simplify.bind_args k l r).
Proof. induction k as [|k IH]; intros l r; cbn [Simplify.bind_args]; xs. Qed.
Lemma x_map_args f : (forall r, SKEEP (f r)) -> forall l, SKEEP (Simplify.map_args f l).
Proof. intros H. induction l as [|[a|] l IH]; cbn [Simplify.map_args]; xs. Qed.
Lemma x_flat_args f : (forall r, SKEEP (f r)) -> forall l, SKEEP (Simplify.flat_args f l).
Proof. intros H. induction l as [|[a|] l IH]; cbn [Simplify.flat_args]; xs. Qed.
Lemma x_lambdas fuel r : SKEEP (fun s => bind (Simplify.lambdas fuel (Simplify.x_heap s) r) (fun n => Ok (n, s))).
Proof.
  intros s N. assert (Q : quiet (Simplify.lambdas fuel (Simplify.x_heap s) r)).
  { revert r. induction fuel as [|f IH]; intros r; cbn [Simplify.lambdas]; [exact I|]. destruct (nth_error _ r) as [[q n fo [x|] [sc|]| | | | | | | | |]|]; try exact I; destruct q; try exact I. apply quiet_bind; [apply IH|intros; exact I]. }
  destruct (Simplify.lambdas _ _ _) as [a|[m|]|]; cbn [bind quiet] in *; try exact I; [|contradiction]. split; [exact N|exact I].
Qed.
Lemma x_simplify pv : forall fuel k r, SKEEP (Simplify.simplify pv fuel k r).
Proof.
  induction fuel as [|f IH]; intros k r; [apply tri_fuel|]. cbn [Simplify.simplify].
  assert (MA := x_map_args _ (IH Simplify.RArgument)). assert (FA := x_flat_args _ (IH Simplify.RArgument)). assert (SB := x_sub pv). assert (BA := x_bind_args).
  assert (LA := x_lambdas (S f)). xs.
Qed.
Lemma named_renumber : forall l i h h', named h -> Simplify.renumber l i h = Ok h' -> named h'.
Proof.
  induction l as [|r l IH]; intros i h h' N E; cbn [Simplify.renumber] in E; [injection E as <-; exact N|].
  destruct (nth_error h r) as [[]|] eqn:X; try (eapply IH; [|exact E]; exact N).
  - eapply IH; [|exact E]. apply named_set; [exact N|exact I].
  - destruct def as [d|]; [|eapply IH; [|exact E]; apply named_set; [exact N|exact I]].
    destruct (nth_error h d) as [[]|]; try discriminate. eapply IH; [|exact E]. apply named_set; [exact N|exact I].
Qed.
Lemma renumber_quiet : forall l i h, quiet (Simplify.renumber l i h).
Proof.
  induction l as [|r l IH]; intros i h; cbn [Simplify.renumber]; [exact I|]. destruct (nth_error h r) as [[]|]; try apply IH. destruct def as [d|]; [|apply IH].
  destruct (nth_error h d) as [[]|]; try exact I. apply IH.
Qed.
Lemma named_simplify fuel r h : named h -> match Simplify.simplify_statement fuel r h with Ok (_, h') => named h' | Panic (PString m) => utf8 m | _ => True end.
Proof.
  intros N. unfold Simplify.simplify_statement. assert (A := x_add_hoa fuel r None (Simplify.SSt h []) N).
  destruct (Simplify.add_hoa _ _ _ _) as [[u s1]|[m|]|]; cbn [bind]; try exact I; [|exact A]. destruct A as [N1 _]. cbn [snd].
  unfold Simplify.pred_vars. assert (V := visited_quiet (Simplify.x_heap s1) fuel r). destruct (visited _ _ _) as [l|[m|]|]; cbn [bind quiet] in *; try exact I; [|contradiction].
  assert (B := x_simplify (flat_map (Simplify.pred_var (Simplify.x_heap s1)) l) fuel Simplify.RStatement r (Simplify.SSt (Simplify.x_heap s1) []) N1).
  destruct (Simplify.simplify _ _ _ _ _) as [[[r2|] s2]|[m|]|]; cbn [bind]; try exact I; [|exact B]. destruct B as [N2 _].
  unfold Simplify.sequence_var_nums. assert (V2 := visited_quiet (Simplify.x_heap s2) fuel r2). destruct (visited _ _ _) as [l2|[m|]|]; cbn [bind quiet] in *; try exact I; [|contradiction].
  assert (V3 := renumber_quiet l2 0 (Simplify.x_heap s2)). destruct (Simplify.renumber l2 0 _) as [h2|[m|]|] eqn:R; cbn [bind quiet] in *; try exact I; [|contradiction]. exact (named_renumber _ _ _ _ N2 R).
Qed.
End Names.

Theorem interpret_utf8 U ol fuel d : (forall n, In n d -> clear_words (words n)) ->
  match Simplify.interpret U ol fuel d with Ok (Some (_, h)) => named h | Panic (PString m) => utf8 m | _ => True end.
Proof.
  intros F. unfold Simplify.interpret. assert (D := k_discourse U ol fuel fuel d (fun n J K => F n J) st0 (Forall_nil _)).
  destruct (discourse U ol fuel fuel d st0) as [[[x|] s]|[m|]|]; cbn [bind]; try exact I; [|exact D]. destruct D as [N _].
  assert (N' := named_simplify fuel x (s_heap s) N). destruct (Simplify.simplify_statement fuel x (s_heap s)) as [[r' h']|[m|]|]; cbn [bind]; try exact I; exact N'.
Qed.

(** ** Printing *)

Open Scope res_scope.
Ltac literal s := match s with EmptyString => idtac | String (Ascii _ _ _ _ _ _ _ _) ?t => literal t end.
Ltac say := repeat first [assumption | apply utf8_nil
  | match goal with |- utf8 (_ ++ _)%string => apply utf8_app end | match goal with |- utf8 ?s => literal s; (lit s) end].
Lemma nth_named h r c : named h -> nth_error h r = Some c -> cell_ok c.
Proof. intros H E. unfold named in H. rewrite Forall_forall in H. exact (H _ (nth_error_In _ _ E)). Qed.
Lemma ok_inj {A} (a b : A) : Ok a = Ok b -> a = b.
Proof. congruence. Qed.
Definition okay (r : res string) : Prop := forall s, r = Ok s -> utf8 s.
Lemma quant_utf8 q : utf8 (show_quant true q).
Proof. destruct q; match goal with |- utf8 ?s => let t := eval cbv in s in change (utf8 t); lit t end. Qed.
Lemma conn_utf8 c : utf8 (conn_string c).
Proof. destruct c; match goal with |- utf8 ?s => let t := eval cbv in s in change (utf8 t); lit t end. Qed.
Lemma var_utf8 names n : utf8 (show_var true names n).
Proof. apply utf8_of. Qed.
Lemma args_utf8 (f : ref -> res string) l : (forall x, okay (f x)) -> okay (show_args f l).
Proof.
  intros H. induction l as [|a l IH]; intros s E; cbn [show_args] in E; [injection E as <-; apply utf8_nil|].
  apply bind_ok in E. destruct E as (x & X & E). apply bind_ok in E. destruct E as (y & Y & E). injection E as <-. specialize (IH _ Y).
  assert (V : utf8 x) by (destruct a; [exact (H _ _ X)|injection X as <-; say]). apply utf8_app; [exact V|]. apply utf8_app; [|exact IH]. destruct l; say.
Qed.
Lemma opt_utf8 (f : ref -> res string) o : (forall x, okay (f x)) -> okay (show_opt f o).
Proof. intros H s E. destruct o; [exact (H _ _ E)|injection E as <-; apply utf8_nil]. Qed.
Ltac out := repeat match goal with
  | E : bind _ _ = Ok _ |- _ => apply bind_ok in E; let x := fresh "x" in let X := fresh "X" in destruct E as (x & X & E)
  | E : Ok _ = Ok _ |- _ => apply ok_inj in E; rewrite <- E; clear E
  end.
Lemma show_utf8 names h : named h -> forall fuel r, okay (show true names h fuel r).
Proof.
  intros N. induction fuel as [|f IH]; intros r s E; cbn [show] in E; [discriminate E|]. destruct (nth_error h r) as [c|] eqn:C; [|discriminate E].
  assert (K := nth_named _ _ _ N C). assert (O := fun o => opt_utf8 (show true names h f) o IH). assert (L := fun l => args_utf8 (show true names h f) l IH).
  destruct c as [q n fo [rs|] sc|c x y|p args|n de fo|args|t full|name|x|x y|p k]; cbn [cell_ok] in K.
  - out. assert (A := IH _ _ X). assert (B := O _ _ X0). assert (Q := quant_utf8 q). assert (V := var_utf8 names n). say.
  - out. assert (B := O _ _ X). assert (Q := quant_utf8 q). assert (V := var_utf8 names n). say.
  - destruct (nth_error h x) as [cx|]; [|discriminate E]. destruct (nth_error h y) as [cy|]; [|discriminate E]. out. assert (A := IH _ _ X). assert (B := IH _ _ X0). assert (Q := conn_utf8 c).
    apply utf8_app; [destruct (parens c cx); say|]. apply utf8_app; [say|]. apply utf8_app; [say|]. apply utf8_app; [say|]. destruct (parens c cy); say.
  - assert (G : okay (n <- show true names h f p ;; a <- show_args (show true names h f) args ;; Ok (n ++ "(" ++ a ++ ")")%string)).
    { intros s' E'. out. assert (A := IH _ _ X). assert (B := L _ _ X0). say. }
    destruct (nth_error h p) as [cp|] eqn:CP; [|exact (G _ E)]. destruct cp; try exact (G _ E). assert (KP := nth_named _ _ _ N CP). cbn [cell_ok] in KP.
    destruct args as [|a [|b [|]]]; try exact (G _ E). destruct (is_bin_op name); out.
    + assert (A := O _ _ X). assert (B := O _ _ X0). say.
    + assert (A := L _ _ X). say.
  - injection E as <-. apply var_utf8.
  - out. assert (A := L _ _ X). say.
  - out. destruct full; say.
  - injection E as <-. exact K.
  - out. assert (A := IH _ _ X). say.
  - out. assert (A := IH _ _ X). assert (B := IH _ _ X0). say.
  - out. assert (A := IH _ _ X). say.
Qed.
Lemma print_utf8 U fuel r h : named h -> okay (pretty_string U fuel (Some (r, h))).
Proof.
  intros N s E. unfold pretty_string, print in E. out. destruct (negb _ && _); [exact (show_utf8 _ _ N _ _ _ E)|]. out.
  assert (A := show_utf8 _ _ N _ _ _ X2). say.
Qed.
Transparent utf8.
