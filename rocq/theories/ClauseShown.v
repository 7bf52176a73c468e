(** What String writes for the tree of a sentence with clauses. *)

From Coq Require Import Ascii String NArith List Bool Arith Lia.
From Verif Require Import Base Utf8 PegSyntax Tone Ast AstSorts Logic LogicWords LogicSpec ScopeSpec Interp LogicString LogicFuel LogicApi OrderFacts NameInj SeqFacts TermFacts
  ScopeFacts ScopeNum Meaning MeaningFacts MeaningRun MeaningHoa Clauses ClauseHeap ClauseStep ClauseHoa ClauseSimp ClauseEnd Truth ClauseNotation.
From Verif Require ShownRead ClauseOne Simplify MeaningApi Shown ShownNums ShownHeap.
Import ListNotations.
Open Scope string_scope.
Open Scope list_scope.
Open Scope nat_scope.

Local Notation refers := LogicSpec.refers.

(** ** The last visit of a binding *)

Lemma refers_last : forall pre post i h h' r d, Simplify.renumber (pre ++ d :: post) i h = Ok h' -> ~ In d post ->
  introduces h d = true -> refers h r d -> In r post -> number h' r = number h' d.
Proof.
  induction pre as [|x pre IH]; intros post i h h' r d E N Id R I; cbn [app] in E; destruct (renumber_step _ _ _ _ _ E) as (h1 & i1 & S & E1); assert (B := step_bare _ _ _ _ _ S).
  - assert (R1 : refers h1 r d) by (eapply bare_refers; [symmetry; exact B|exact R]).
    assert (Id1 : introduces h1 d = true) by (rewrite (bare_introduces h1 h) by exact B; exact Id).
    assert (O : ShownNums.once d post) by (intros a b -> J; apply N, in_or_app; right; left; reflexivity).
    rewrite (proj1 (ShownNums.refers_once _ _ _ _ _ _ E1 O Id1 R1 I) N). symmetry. eapply renumber_keep; eassumption.
  - eapply IH; [exact E1|exact N| | |exact I]; [rewrite (bare_introduces h1 h) by exact B; exact Id|eapply bare_refers; [symmetry; exact B|exact R]].
Qed.

Lemma flat_split {A B} (f : A -> res (list B)) : forall l v, flat_res f l = Ok v -> forall pre d post, v = pre ++ d :: post ->
  exists x pre' post' rest, f x = Ok (pre' ++ d :: post') /\ post = post' ++ rest.
Proof.
  induction l as [|y l IH]; intros v E pre d post Ev; cbn [flat_res] in E; [injection E as <-; destruct pre; discriminate|].
  destruct (f y) as [a| |] eqn:Y; cbn [bind] in E; try discriminate. destruct (flat_res f l) as [b| |] eqn:L; cbn [bind] in E; try discriminate. injection E as <-.
  destruct (app_eq_app _ _ _ _ Ev) as (m & [[-> Hm]|[-> Hm]]).
  - destruct m as [|z m]; cbn in Hm.
    + rewrite app_nil_r in *. destruct (IH b eq_refl [] d post) as (x & p & q & rest & K); [symmetry; exact Hm|]. eauto 8.
    + injection Hm as <- ->. exists y, pre, m, b. auto.
  - destruct (IH _ eq_refl m d post Hm) as (x & p & q & rest & K). eauto 8.
Qed.
Lemma visited_tail h : forall f r l pre d post, visited h f r = Ok l -> l = pre ++ d :: post -> exists f' w rest, visited h f' d = Ok (d :: w) /\ post = w ++ rest.
Proof.
  induction f as [|f IH]; intros r l pre d post V E; [discriminate|]. destruct (visited_inv _ _ _ _ V) as (f' & c & l' & Ef & C & F & ->). injection Ef as <-.
  destruct pre as [|x pre]; cbn in E; injection E as <- E.
  - subst l'. exists (S f), post, []. rewrite app_nil_r. auto.
  - destruct (flat_split _ _ _ F _ _ _ E) as (k & p & q & rest & K & ->). destruct (IH _ _ _ _ _ K eq_refl) as (f'' & w & rest' & V' & ->).
    exists f'', w, (rest' ++ rest). rewrite app_assoc. auto.
Qed.
Lemma last_split (d : ref) l : In d l -> exists pre post, l = pre ++ d :: post /\ ~ In d post.
Proof.
  induction l as [|x l IH]; intros I; [destruct I|]. destruct (in_dec Nat.eq_dec d l) as [J|J].
  - destruct (IH J) as (pre & post & -> & N). exists (x :: pre), post. auto.
  - destruct I as [->|I]; [|contradiction]. exists [], l. auto.
Qed.
Lemma occurs_under h r sc x : occurs h r sc x -> forall d, In d sc -> desc h d x /\ desc h r d.
Proof.
  induction 1 as [r|r c k sc x E K O IH]; intros d I; [destruct I|]. assert (C : child h r k) by (exists c; auto).
  assert (Dk : desc h k x). { clear - O. induction O as [r|r c k sc x E K O IH]; [constructor|]. econstructor 2; [exists c; split; [exact E|exact K]|exact IH]. }
  assert (G : In d sc -> desc h d x /\ desc h r d) by (intros J; destruct (IH _ J); split; [assumption|econstructor 2; eassumption]).
  destruct c; try exact (G I). destruct I as [<-|I]; [|exact (G I)]. split; [econstructor 2; eassumption|constructor].
Qed.

(** In a tree with every variable inside its binding the variables get the numbers of their
    bindings, even if parts of it are visited several times. *)
Lemma scoped_same r h h1 f l : visited h f r = Ok l -> Simplify.renumber l 0 h1 = Ok h -> bare h = bare h1 -> scoped (r, h) ->
  forall x d, In x l -> refers h x d -> In d l /\ number h x = number h d.
Proof.
  intros V Rn B Sc x d I R. destruct (visited_occurs _ _ _ _ _ V I) as (sc & Oc). assert (Id := Sc _ _ _ Oc R). cbn [fst snd] in *.
  destruct (occurs_under _ _ _ _ Oc _ Id) as [D1 D2]. destruct (proj2 (occurs_before _ _ _ _ Oc _ _ V) _ Id) as [_ In'].
  assert (Il : In d l) by (eapply ShownHeap.desc_visited; eassumption). split; [exact Il|].
  destruct (last_split _ _ Il) as (pre & post & -> & N). destruct (visited_tail _ _ _ _ _ _ _ V eq_refl) as (f' & w & rest & Vd & ->).
  assert (Ix : In x (d :: w)) by (eapply ShownHeap.desc_visited; eassumption).
  destruct Ix as [->|Ix]; [rewrite (refers_introduces _ _ _ R) in In'; discriminate|].
  eapply refers_last; [exact Rn|exact N| | |apply in_or_app; left; exact Ix]; [rewrite <- (bare_introduces _ _ _ B); exact In'|eapply bare_refers; [exact B|exact R]].
Qed.

(** ** Variables inside their bindings *)

Lemma occurs_cell h r sc x : occurs h r sc x -> (r = x /\ sc = []) \/
  exists c k sc', nth_error h r = Some c /\ In k (below c) /\ occurs h k sc' x /\ sc = match c with CBinding _ _ _ _ _ => r :: sc' | _ => sc' end.
Proof. destruct 1 as [r|r c k sc x E K O]; [left; auto|right; eauto 8]. Qed.
Lemma without_in x y l : In y l -> y = x \/ In y (without x l).
Proof. intros I. destruct (Nat.eq_dec y x); [auto|]. right. apply filter_In. split; [exact I|]. apply negb_true_iff, Nat.eqb_neq. assumption. Qed.

Section Stray.
Variable h : heap.
Definition over (sc : list ref) (n : nat) : Prop := exists e, In e sc /\ num h e n.

Lemma prop_stray r p : rprop h r p -> forall sc x d n, occurs h r sc x -> refers h x d -> num h d n -> In n (stray_s p).
Proof.
  induction 1 as [r s E|r t T|r a b p q E Hp IHp Hq IHq]; intros sc x d n O R N; (destruct (occurs_cell _ _ _ _ O) as [[<- ->]|(c & k & sc' & Ec & K & O' & _)]).
  - destruct R as (? & ? & R). congruence.
  - rewrite E in Ec. injection Ec as <-. destruct K.
  - destruct T as [r m e f E M|r m E]; destruct R as (n' & f' & R); [|congruence]. rewrite E in R. injection R as <- <- <-. left.
    destruct M as (? & ? & ? & ? & M), N as (? & ? & ? & ? & N). congruence.
  - destruct T as [r m e f E M|r m E]; rewrite E in Ec; injection Ec as <-; destruct K.
  - destruct R as (? & ? & R). congruence.
  - rewrite E in Ec. injection Ec as <-. cbn [stray_s]. apply in_or_app. destruct K as [<-|[<-|[]]]; [left; eapply IHp|right; eapply IHq]; eassumption.
Qed.
Lemma at_stray :
  (forall X r F, at_f h X r F -> forall sc x d n, occurs h r sc x -> refers h x d -> num h d n -> over sc n \/ In n (stray F)) /\
  (forall X r F, at_p h X r F -> forall sc x d n, occurs h r sc x -> refers h x d -> num h d n -> over sc n \/ In n (stray_p F)) /\
  (forall X r F, at_t h X r F -> forall sc x d n, occurs h r sc x -> refers h x d -> num h d n -> over sc n \/ In n (stray_t F)) /\
  (forall X xs F, at_r h X xs F -> forall k sc x d n, In (Some k) xs -> occurs h k sc x -> refers h x d -> num h d n -> over sc n \/ In n (stray_r F)).
Proof.
  apply at_ind.
  - intros r x xs p l X Y E _ IHp _ IHl sc z d n O R N. destruct (occurs_cell _ _ _ _ O) as [[<- ->]|(c & k & sc' & Ec & K & O' & ->)]; [destruct R as (? & ? & R); congruence|].
    rewrite E in Ec. injection Ec as <-. cbn [stray]. rewrite in_app_iff. destruct K as [<-|K]; [destruct (IHp _ _ _ _ O' R N); auto|].
    apply in_flat_map in K. destruct K as ([y|] & Iy & K); [|destruct K]. destruct K as [<-|[]]. destruct (IHl _ _ _ _ _ Iy O' R N); auto.
  - intros r c0 x y F G X Y E _ IHp _ IHl sc z d n O R N. destruct (occurs_cell _ _ _ _ O) as [[<- ->]|(c & k & sc' & Ec & K & O' & ->)]; [destruct R as (? & ? & R); congruence|].
    rewrite E in Ec. injection Ec as <-. cbn [stray]. rewrite in_app_iff. destruct K as [<-|[<-|[]]]; [destruct (IHp _ _ _ _ O' R N)|destruct (IHl _ _ _ _ O' R N)]; auto.
  - intros r q m f s G X E _ IH sc z d n O R N. destruct (occurs_cell _ _ _ _ O) as [[<- ->]|(c & k & sc' & Ec & K & O' & ->)]; [destruct R as (? & ? & R); congruence|].
    rewrite E in Ec. injection Ec as <-. cbn [stray]. destruct K as [<-|[]]. destruct (IH _ _ _ _ O' R N) as [(e & Ie & Ne)|I].
    + left. exists e. split; [right; exact Ie|exact Ne].
    + destruct (without_in m n _ I) as [->|J]; [|auto]. left. exists r. split; [left; reflexivity|]. do 4 eexists. exact E.
  - intros r q m f x s R0 G X Y E _ IHr _ IH sc z d n O R N. destruct (occurs_cell _ _ _ _ O) as [[<- ->]|(c & k & sc' & Ec & K & O' & ->)]; [destruct R as (? & ? & R); congruence|].
    rewrite E in Ec. injection Ec as <-. cbn [stray]. 
    assert (J : over sc' n \/ In n (stray R0 ++ stray G)) by (rewrite in_app_iff; destruct K as [<-|[<-|[]]]; [destruct (IHr _ _ _ _ O' R N)|destruct (IH _ _ _ _ O' R N)]; auto).
    destruct J as [(e & Ie & Ne)|I].
    + left. exists e. split; [right; exact Ie|exact Ne].
    + destruct (without_in m n _ I) as [->|J]; [|auto]. left. exists r. split; [left; reflexivity|]. do 4 eexists. exact E.
  - intros r p P sc z d n O R N. right. eapply prop_stray; eassumption.
  - intros r x F X E _ IH sc z d n O R N. destruct (occurs_cell _ _ _ _ O) as [[<- ->]|(c & k & sc' & Ec & K & O' & ->)]; [destruct R as (? & ? & R); congruence|].
    rewrite E in Ec. injection Ec as <-. destruct K as [<-|[]]. exact (IH _ _ _ _ O' R N).
  - intros r v T sc z d n O R N. right. assert (J := prop_stray r (Unnamed v) (RPU _ _ _ T)). eapply J; eassumption.
  - intros r s f E sc z d n O R N. destruct (occurs_cell _ _ _ _ O) as [[<- ->]|(c & k & sc' & Ec & K & O' & ->)]; [destruct R as (? & ? & R); congruence|].
    rewrite E in Ec. injection Ec as <-. destruct K.
  - intros r x F X E _ IH sc z d n O R N. destruct (occurs_cell _ _ _ _ O) as [[<- ->]|(c & k & sc' & Ec & K & O' & ->)]; [destruct R as (? & ? & R); congruence|].
    rewrite E in Ec. injection Ec as <-. destruct K as [<-|[]]. exact (IH _ _ _ _ O' R N).
  - intros r xs l X E _ IH sc z d n O R N. destruct (occurs_cell _ _ _ _ O) as [[<- ->]|(c & k & sc' & Ec & K & O' & ->)]; [destruct R as (? & ? & R); congruence|].
    rewrite E in Ec. injection Ec as <-. cbn in K. apply in_flat_map in K. destruct K as ([y|] & Iy & K); [|destruct K]. destruct K as [<-|[]]. exact (IH _ _ _ _ _ Iy O' R N).
  - intros k sc x d n [].
  - intros xs l X _ IH k sc x d n [K|K]; [discriminate|]. cbn [stray_r]. eauto.
  - intros y xs a l X Y _ IHa _ IHl k sc x d n [K|K] O R N; cbn [stray_r]; rewrite in_app_iff; [injection K as ->; destruct (IHa _ _ _ _ O R N)|destruct (IHl _ _ _ _ _ K O R N)]; auto.
Qed.
End Stray.

Lemma bare_occurs h h1 r sc x : bare h = bare h1 -> occurs h r sc x -> occurs h1 r sc x.
Proof.
  intros B. induction 1 as [r|r c k sc x E K O IH]; [constructor|].
  assert (X := bare_nth _ _ r B). rewrite E in X. destruct (nth_error h1 r) as [c'|] eqn:E'; [|discriminate]. injection X as X.
  assert (Hb : In k (below c')) by (destruct c, c'; try discriminate; cbn in X; injection X; intros; subst; exact K).
  assert (O2 := OBelow h1 r c' k sc x E' Hb IH). destruct c, c'; try discriminate; exact O2.
Qed.

(** A variable in the tree refers to a binding, which has a number. *)
Lemma prop_refers h r p : rprop h r p -> forall sc x d, occurs h r sc x -> refers h x d -> exists n, num h d n.
Proof.
  induction 1 as [r s E|r t T|r a b p q E Hp IHp Hq IHq]; intros sc x d O R; (destruct (occurs_cell _ _ _ _ O) as [[<- ->]|(c & k & sc' & Ec & K & O' & _)]).
  - destruct R as (? & ? & R). congruence.
  - rewrite E in Ec. injection Ec as <-. destruct K.
  - destruct T as [r m e f E M|r m E]; destruct R as (n' & f' & R); [|congruence]. rewrite E in R. injection R as <- <- <-. eauto.
  - destruct T as [r m e f E M|r m E]; rewrite E in Ec; injection Ec as <-; destruct K.
  - destruct R as (? & ? & R). congruence.
  - rewrite E in Ec. injection Ec as <-. destruct K as [<-|[<-|[]]]; eauto.
Qed.
Lemma at_refers h :
  (forall X r F, at_f h X r F -> forall sc x d, occurs h r sc x -> refers h x d -> exists n, num h d n) /\
  (forall X r F, at_p h X r F -> forall sc x d, occurs h r sc x -> refers h x d -> exists n, num h d n) /\
  (forall X r F, at_t h X r F -> forall sc x d, occurs h r sc x -> refers h x d -> exists n, num h d n) /\
  (forall X xs F, at_r h X xs F -> forall k sc x d, In (Some k) xs -> occurs h k sc x -> refers h x d -> exists n, num h d n).
Proof.
  apply at_ind.
  5: intros r p P; exact (prop_refers h r p P).
  6: intros r v T; exact (prop_refers h r (Unnamed v) (RPU _ _ _ T)).
  all: try (intros; match goal with O : occurs _ _ _ _, E : nth_error _ _ = Some _ |- _ => destruct (occurs_cell _ _ _ _ O) as [[<- ->]|(c' & k & sc' & Ec & K & O' & ->)];
    [match goal with R : refers _ _ _ |- _ => destruct R as (? & ? & R); congruence end|rewrite E in Ec; injection Ec as <-; cbn in K] end).
  - destruct K as [<-|K]; [eauto|]. apply in_flat_map in K. destruct K as ([y|] & Iy & K); [|destruct K]. destruct K as [<-|[]]. eauto.
  - destruct K as [<-|[<-|[]]]; eauto.
  - destruct K as [<-|[]]; eauto.
  - destruct K as [<-|[<-|[]]]; eauto.
  - destruct K as [<-|[]]; eauto.
  - destruct K.
  - destruct K as [<-|[]]; eauto.
  - apply in_flat_map in K. destruct K as ([y|] & Iy & K); [|destruct K]. destruct K as [<-|[]]. eauto.
  - intros k sc x d [].
  - intros xs l X _ IH k sc x d [K|K]; [discriminate|]. eauto.
  - intros y xs a l X Y _ IHa _ IHl k sc x d [K|K]; [injection K as ->|]; eauto.
Qed.

Theorem stray_scoped h h1 k r F X : bare h = bare h1 -> nums h1 k -> at_f h1 X r F -> stray F = [] -> scoped (r, h).
Proof.
  intros B Nu A St sc x d O R. cbn [fst snd] in *. apply (bare_occurs _ h1) in O; [|exact B]. assert (R1 : refers h1 x d) by (eapply bare_refers; eassumption).
  destruct (proj1 (at_refers h1) _ _ _ A _ _ _ O R1) as (n & N). destruct (proj1 (at_stray h1) _ _ _ A _ _ _ _ O R1 N) as [(e & I & N')|I]; [|rewrite St in I; destruct I].
  rewrite (u_one _ _ Nu _ _ _ N N'). exact I.
Qed.

(** ** The text *)

Section Show.
Variables (h h1 : heap) (k : nat) (l : list ref).
Hypothesis B : bare h = bare h1.
Hypothesis Nu : nums h1 k.
Hypothesis Same : forall x d, In x l -> refers h x d -> In d l /\ number h x = number h d.
Hypothesis Apart : forall x y, In x l -> In y l -> introduces h x = true -> introduces h y = true -> number h x = number h y -> x = y.
Variable names : option (list string).
Notation renamed := (ShownHeap.renamed h h1 l).
Notation reaches := (ShownHeap.reaches h1 l).
Let nm (x : nat) : string := show_var false names (renamed x).

Ltac cell E := let c' := fresh "c" in let E' := fresh "E'" in let X := fresh "X" in
  destruct (ShownHeap.same_cell h h1 B _ _ E) as (c' & E' & X); destruct c'; try discriminate; cbn in X; injection X; intros; subst.
Lemma reaches_below r c x : reaches r -> nth_error h1 r = Some c -> In x (below c) -> reaches x.
Proof. intros R E I. eapply ShownHeap.reaches_child; [exact R|exists c; auto]. Qed.

Definition written (f : nat) (o : option ref) (t : option string) : Prop :=
  match o, t with
  | None, None => True
  | Some x, Some t => forall s, show false names h f x = Ok s -> s = t
  | _, _ => False
  end.
Lemma args_written f : forall xs ts s, Forall2 (written f) xs ts -> show_args (show false names h f) xs = Ok s -> s = listed_text ts.
Proof.
  intros xs ts s H. revert s. unfold listed_text. induction H as [|x t xs ts Hx H IH]; intros s S; cbn [show_args] in S; [injection S as <-; reflexivity|].
  destruct (match x with None => Ok "·" | Some y => show false names h f y end) as [a| |] eqn:Sa; cbn [bind] in S; try discriminate.
  destruct (show_args (show false names h f) xs) as [b| |] eqn:Sb; cbn [bind] in S; try discriminate. injection S as <-.
  assert (Ea : a = blank "·" t) by (destruct x, t; try contradiction; [apply Hx, Sa|injection Sa as <-; reflexivity]).
  assert (Sb' := IH b eq_refl). clear Sb. subst a b. destruct H as [|x' t' xs ts Hx' H]; cbn [map]; [apply ShownRead.sapp_nil|]. reflexivity.
Qed.
Lemma opt_written f o t s : written f o t -> show_opt (show false names h f) o = Ok s -> s = blank "" t.
Proof. destruct o, t; cbn; try contradiction; intros H S; [exact (H _ S)|injection S as <-; reflexivity]. Qed.

Lemma alone_parens c X x F cx : at_f h1 X x F -> nth_error h x = Some cx -> parens c cx = negb (alone c F).
Proof.
  intros H E. destruct H as [r y ys p ts X1 X2 E1 _ _|r c' a b F G X1 X2 E1 _ _|r q n f s F X1 E1 _|r q n f y s R F X1 X2 E1 _ _]; cell E1; rewrite E in E'; injection E' as ->; cbn; try reflexivity.
  destruct c', c; reflexivity.
Qed.

Lemma at_show :
  (forall X r F, at_f h1 X r F -> forall f s, reaches r -> show false names h f r = Ok s -> s = form_text nm F) /\
  (forall X r F, at_p h1 X r F -> forall f s, reaches r -> show false names h f r = Ok s -> s = prop_text nm F) /\
  (forall X r F, at_t h1 X r F -> forall f s, reaches r -> show false names h f r = Ok s -> s = term_text nm F) /\
  (forall X xs F, at_r h1 X xs F -> forall f, (forall x, In (Some x) xs -> reaches x) -> Forall2 (written f) xs (row_texts nm F)).
Proof.
  apply at_ind.
  - intros r x xs p l' X Y E Hp IHp Hl IHl f s R S. assert (Rc := reaches_below _ _ x R E (or_introl eq_refl)).
    assert (Ra : forall y, In (Some y) xs -> reaches y).
    { intros y I. eapply reaches_below; [exact R|exact E|]. right. apply in_flat_map. exists (Some y). split; [exact I|left; reflexivity]. }
    destruct f as [|f]; [discriminate|]. cbn [show] in S. cell E. rewrite E' in S. change (s = applied_text p (prop_text nm p) (row_texts nm l')). specialize (IHl f Ra). specialize (IHp f).
    assert (Pre : forall s, bind (show false names h f x) (fun n => bind (show_args (show false names h f) xs) (fun a => Ok (n ++ "(" ++ a ++ ")")%string)) = Ok s ->
              s = (prop_text nm p ++ "(" ++ listed_text (row_texts nm l') ++ ")")%string).
    { intros s0 S0. destruct (show false names h f x) as [a| |] eqn:Sa; cbn [bind] in S0; try discriminate. destruct (show_args (show false names h f) xs) as [b| |] eqn:Sb; cbn [bind] in S0; try discriminate.
      injection S0 as <-. rewrite (IHp _ Rc eq_refl), (args_written _ _ _ _ IHl Sb). reflexivity. }
    destruct (nth_error h x) as [cx|] eqn:Ex.
    2: { cbn in S. destruct f; [discriminate|]. cbn [show] in S. rewrite Ex in S. discriminate. }
    destruct Hp as [x p Hp|x y F X Ey _].
    + destruct Hp as [x n Ex1|x t T|x a b p q Ex1 Hp Hq].
      * cell Ex1. rewrite Ex in E'0. injection E'0 as ->. change (prop_text nm (Simple (Named n))) with n in *. unfold applied_text.
        assert (Pre' : forall s, bind (show_args (show false names h f) xs) (fun a => Ok (n ++ "(" ++ a ++ ")")%string) = Ok s -> s = (n ++ "(" ++ listed_text (row_texts nm l') ++ ")")%string).
        { intros s0 S0. destruct (show_args (show false names h f) xs) as [b| |] eqn:Sb; cbn [bind] in S0; try discriminate.
          injection S0 as <-. rewrite (args_written _ _ _ _ IHl Sb). reflexivity. }
        destruct IHl as [|x1 t1 xs' ts H1 Ha]; [exact (Pre _ S)|]. destruct Ha as [|x2 t2 xs2 ts H2 Ha]; [exact (Pre _ S)|]. destruct Ha as [|x3 t3 xs3 ts H3 Ha]; [|exact (Pre _ S)].
        change (is_bin_op n) with (Shown.infix n) in S. destruct (Shown.infix n); [|exact (Pre' _ S)].
        destruct (show_opt (show false names h f) x1) as [a| |] eqn:Sa; cbn [bind] in S; try discriminate.
        destruct (show_opt (show false names h f) x2) as [b| |] eqn:Sb; cbn [bind] in S; try discriminate. injection S as <-.
        rewrite (opt_written _ _ _ _ H1 Sa), (opt_written _ _ _ _ H2 Sb). reflexivity.
      * apply Pre. rewrite <- S. destruct T as [r0 n d fo Et _|r0 n Et]; cell Et; rewrite Ex in E'0; injection E'0 as ->; reflexivity.
      * apply Pre. rewrite <- S. cell Ex1. rewrite Ex in E'0. injection E'0 as ->. reflexivity.
    + apply Pre. rewrite <- S. cell Ey. rewrite Ex in E'0. injection E'0 as ->. reflexivity.
  - intros r c x y F G X Y E Hf IHf Hg IHg f s R S. assert (Rx := reaches_below _ _ x R E (or_introl eq_refl)). assert (Ry := reaches_below _ _ y R E (or_intror (or_introl eq_refl))).
    destruct f as [|f]; [discriminate|]. cbn [show] in S. cell E. rewrite E' in S. destruct (nth_error h x) as [cx|] eqn:Cx; [|discriminate]. destruct (nth_error h y) as [cy|] eqn:Cy; [|discriminate].
    destruct (show false names h f x) as [a| |] eqn:Sa; cbn [bind] in S; try discriminate. destruct (show false names h f y) as [b| |] eqn:Sb; cbn [bind] in S; try discriminate.
    apply (IHf _ _ Rx) in Sa. apply (IHg _ _ Ry) in Sb. injection S as <-. subst a b.
    change (form_text nm (Joined c F G)) with (Shown.parened (alone c F) (form_text nm F) ++ " " ++ Shown.conn_sign c ++ " " ++ Shown.parened (alone c G) (form_text nm G))%string.
    rewrite (alone_parens c _ _ F cx Hf Cx), (alone_parens c _ _ G cy Hg Cy). destruct (alone c F), (alone c G), c; reflexivity.
  - intros r q n fo x G X E Hg IHg f s R S. assert (Rx := reaches_below _ _ x R E (or_introl eq_refl)).
    assert (N := ShownHeap.renamed_at h h1 k l B Nu n r (ShownHeap.reaches_here _ _ _ R) ltac:(apply ShownHeap.num_introducer; do 4 eexists; exact E)).
    destruct f as [|f]; [discriminate|]. cbn [show] in S. cell E. unfold number in N. rewrite E' in S, N. injection N as ->. cbn [show_opt] in S. destruct (show false names h f x) as [a| |] eqn:Sa; cbn [bind] in S; try discriminate.
    apply (IHg _ _ Rx) in Sa. injection S as <-. subst a. destruct q; reflexivity.
  - intros r q n fo y x R0 G X Y E Hr IHr Hg IHg f s R S. assert (Ry := reaches_below _ _ y R E (or_introl eq_refl)). assert (Rx := reaches_below _ _ x R E (or_intror (or_introl eq_refl))).
    assert (N := ShownHeap.renamed_at h h1 k l B Nu n r (ShownHeap.reaches_here _ _ _ R) ltac:(apply ShownHeap.num_introducer; do 4 eexists; exact E)).
    destruct f as [|f]; [discriminate|]. cbn [show] in S. cell E. unfold number in N. rewrite E' in S, N. injection N as ->. cbn [show_opt] in S.
    destruct (show false names h f y) as [a| |] eqn:Sa; cbn [bind] in S; try discriminate. destruct (show false names h f x) as [b| |] eqn:Sb; cbn [bind] in S; try discriminate.
    apply (IHr _ _ Ry) in Sa. apply (IHg _ _ Rx) in Sb. injection S as <-. subst a b. destruct q; reflexivity.
  - intros r p P f s R S. exact (ShownHeap.prop_show h h1 k l B Nu Same names _ _ _ _ P R S).
  - intros r x F X E Hf IH f s R S. assert (Rx := reaches_below _ _ x R E (or_introl eq_refl)). destruct f as [|f]; [discriminate|]. cbn [show] in S. cell E. rewrite E' in S.
    destruct (show false names h f x) as [a| |] eqn:Sa; cbn [bind] in S; try discriminate. injection S as <-. rewrite (IH _ _ Rx Sa). reflexivity.
  - intros r v T f s R S. exact (ShownHeap.thing_show h h1 k l B Nu Same names _ _ _ _ T (ShownHeap.reaches_here _ _ _ R) S).
  - intros r t fu E f s R S. destruct f as [|f]; [discriminate|]. cbn [show] in S. cell E. rewrite E' in S. injection S as <-. reflexivity.
  - intros r x F X E Hf IH f s R S. assert (Rx := reaches_below _ _ x R E (or_introl eq_refl)). destruct f as [|f]; [discriminate|]. cbn [show] in S. cell E. rewrite E' in S.
    destruct (show false names h f x) as [a| |] eqn:Sa; cbn [bind] in S; try discriminate. injection S as <-. rewrite (IH _ _ Rx Sa). reflexivity.
  - intros r xs l' X E Hl IH f s R S.
    assert (Ra : forall y, In (Some y) xs -> reaches y).
    { intros y I. eapply reaches_below; [exact R|exact E|]. apply in_flat_map. exists (Some y). split; [exact I|left; reflexivity]. }
    destruct f as [|f]; [discriminate|]. cbn [show] in S. cell E. rewrite E' in S.
    destruct (show_args (show false names h f) xs) as [a| |] eqn:Sa; cbn [bind] in S; try discriminate. injection S as <-. rewrite (args_written _ _ _ _ (IH f Ra) Sa). reflexivity.
  - intros f _. constructor.
  - intros xs l' X _ IH f R. change (row_texts nm (Gap l')) with (None :: row_texts nm l'). constructor; [exact I|]. apply IH. intros x I. apply R. right. exact I.
  - intros x xs a l' X Y _ IHa _ IHl f R. change (row_texts nm (Item a l')) with (Some (term_text nm a) :: row_texts nm l'). constructor; [intros s S; eapply IHa; [apply R; left; reflexivity|exact S]|]. apply IHl. intros y I. apply R. right. exact I.
Qed.

(** ** The variables *)

Definition introduced_in (x : nat) : Prop := exists d, In d l /\ ShownHeap.is_introducer h1 x d = true.
Lemma numbers_vars p : numbers_s p = Shown.property_vars p.
Proof. reflexivity. Qed.
Lemma at_introduced :
  (forall X r F, at_f h1 X r F -> reaches r -> forall x, In x (binders F) \/ In x (numbers F) -> introduced_in x) /\
  (forall X r F, at_p h1 X r F -> reaches r -> forall x, In x (binders_p F) \/ In x (numbers_p F) -> introduced_in x) /\
  (forall X r F, at_t h1 X r F -> reaches r -> forall x, In x (binders_t F) \/ In x (numbers_t F) -> introduced_in x) /\
  (forall X xs F, at_r h1 X xs F -> (forall y, In (Some y) xs -> reaches y) -> forall x, In x (binders_r F) \/ In x (numbers_r F) -> introduced_in x).
Proof.
  apply at_ind.
  - intros r y ys p l' X Y E _ IHp _ IHl R x I. cbn [binders numbers] in I. rewrite !in_app_iff in I.
    assert (Ry := reaches_below _ _ y R E (or_introl eq_refl)).
    assert (Ra : forall z, In (Some z) ys -> reaches z).
    { intros z J. eapply reaches_below; [exact R|exact E|]. right. apply in_flat_map. exists (Some z). split; [exact J|left; reflexivity]. }
    destruct I as [[I|I]|[I|I]]; [apply IHl|apply IHp|apply IHp|apply IHl]; auto.
  - intros r c a b F G X Y E _ IHf _ IHg R x I. cbn [binders numbers] in I. rewrite !in_app_iff in I.
    assert (Ra := reaches_below _ _ a R E (or_introl eq_refl)). assert (Rb := reaches_below _ _ b R E (or_intror (or_introl eq_refl))).
    destruct I as [[I|I]|[I|I]]; [apply IHf|apply IHg|apply IHf|apply IHg]; auto.
  - intros r q n f s G X E _ IH R x I. cbn [binders numbers] in I. assert (Rs := reaches_below _ _ s R E (or_introl eq_refl)).
    destruct I as [[<-|I]|I]; [exists r; split; [apply ShownHeap.reaches_here with (h1 := h1), R|apply ShownHeap.num_introducer; do 4 eexists; exact E]|apply IH; auto|apply IH; auto].
  - intros r q n f y s R0 G X Y E _ IHr _ IH R x I. cbn [binders numbers] in I. assert (Ry := reaches_below _ _ y R E (or_introl eq_refl)). assert (Rs := reaches_below _ _ s R E (or_intror (or_introl eq_refl))).
    destruct I as [[<-|I]|I]; [exists r; split; [apply ShownHeap.reaches_here with (h1 := h1), R|apply ShownHeap.num_introducer; do 4 eexists; exact E]| |]; apply in_app_or in I; destruct I as [I|I]; auto.
  - intros r p P R x [[]|I]. cbn [numbers_p] in I. rewrite numbers_vars in I. exact (ShownHeap.prop_introduced h h1 k l B Nu Same _ _ _ P R I).
  - intros r y F X E _ IH R x I. apply IH; [|exact I]. eapply reaches_below; [exact R|exact E|left; reflexivity].
  - intros r v T R x [[]|[<-|[]]]. destruct (ShownHeap.thing_number h h1 k l B Nu Same _ _ T (ShownHeap.reaches_here _ _ _ R)) as [_ J]. destruct v; exact J.
  - intros r s f E R x [[]|[]].
  - intros r y F X E _ IH R x I. apply IH; [|exact I]. eapply reaches_below; [exact R|exact E|left; reflexivity].
  - intros r xs l' X E _ IH R x I. apply IH; [|exact I]. intros y J. eapply reaches_below; [exact R|exact E|]. apply in_flat_map. exists (Some y). split; [exact J|left; reflexivity].
  - intros _ x [[]|[]].
  - intros xs l' X _ IH R x I. apply IH; [|exact I]. intros y J. apply R. right. exact J.
  - intros y xs a l' X Y _ IHa _ IHl R x I. cbn [binders_r numbers_r] in I. rewrite !in_app_iff in I.
    assert (Ry := R y (or_introl eq_refl)). assert (Rs : forall z, In (Some z) xs -> reaches z) by (intros z J; apply R; right; exact J).
    destruct I as [[I|I]|[I|I]]; [apply IHa|apply IHl|apply IHa|apply IHl]; auto.
Qed.
Theorem renamed_form r F X x y : at_f h1 X r F -> reaches r -> In x (form_variables F) -> In y (form_variables F) -> renamed x = renamed y -> x = y.
Proof.
  intros H R Ix Iy E. unfold form_variables in *. apply in_app_or in Ix, Iy.
  destruct (proj1 at_introduced _ _ _ H R _ Ix) as (d & Id & D). destruct (proj1 at_introduced _ _ _ H R _ Iy) as (e & Ie & D').
  assert (d = e).
  { assert (In1 : forall z e, ShownHeap.is_introducer h1 z e = true -> introduces h e = true) by (intros z e' Z; rewrite (bare_introduces _ _ _ B); unfold ShownHeap.is_introducer in Z; apply andb_true_iff in Z; apply Z).
    apply Apart; auto; [eapply In1, D|eapply In1, D'|].
    rewrite (ShownHeap.renamed_at h h1 k l B Nu _ _ Id D), (ShownHeap.renamed_at h h1 k l B Nu _ _ Ie D'). congruence. }
  subst e. eapply ShownHeap.introducer_fun; eassumption.
Qed.
End Show.

(** ** Stray variables, in the tree *)

Section Outside.
Variable h : heap.
Definition outside (r : ref) (n : nat) : Prop := exists sc x d, occurs h r sc x /\ refers h x d /\ num h d n /\ ~ over h sc n.
Lemma outside_below r c y n : nth_error h r = Some c -> In y (below c) -> (forall q m f rs sc, c = CBinding q m f rs sc -> n <> m) -> outside y n -> outside r n.
Proof.
  intros E I N (sc & x & d & O & R & D & V). exists (match c with CBinding _ _ _ _ _ => r :: sc | _ => sc end), x, d. split; [eapply OBelow; eassumption|]. split; [exact R|]. split; [exact D|].
  destruct c; try exact V. intros (e & [<-|J] & M); [|apply V; exists e; auto]. destruct M as (q' & f' & rs' & sc' & M). rewrite E in M. injection M as <- <- <- <- <-. exact (N _ _ _ _ _ eq_refl eq_refl).
Qed.
Lemma without_inv x y l : In y (without x l) -> In y l /\ y <> x.
Proof. intros I. apply filter_In in I. destruct I as [I J]. apply negb_true_iff, Nat.eqb_neq in J. auto. Qed.
Lemma thing_outside r v n : rthing h r v -> In n (of_var v) -> outside r n.
Proof.
  intros T I. destruct T as [r m d f E D|r m E]; [|destruct I]. destruct I as [<-|[]]. exists [], r, d. split; [constructor|]. split; [do 2 eexists; exact E|]. split; [exact D|]. intros (e & [] & _).
Qed.
Lemma prop_outside r p n : rprop h r p -> In n (stray_s p) -> outside r n.
Proof.
  induction 1 as [r s E|r t T|r a b p q E Hp IHp Hq IHq]; intros I; cbn [stray_s] in I; [destruct I|eapply thing_outside; eassumption|].
  apply in_app_or in I. destruct I as [I|I]; [eapply outside_below; [exact E|left; reflexivity|discriminate|auto]|eapply outside_below; [exact E|right; left; reflexivity|discriminate|auto]].
Qed.
Lemma at_outside :
  (forall X r F, at_f h X r F -> forall n, In n (stray F) -> outside r n) /\
  (forall X r F, at_p h X r F -> forall n, In n (stray_p F) -> outside r n) /\
  (forall X r F, at_t h X r F -> forall n, In n (stray_t F) -> outside r n) /\
  (forall X xs F, at_r h X xs F -> forall n, In n (stray_r F) -> exists y, In (Some y) xs /\ outside y n).
Proof.
  apply at_ind.
  - intros r x xs p l X Y E _ IHp _ IHl n I. cbn [stray] in I. apply in_app_or in I. destruct I as [I|I]; [eapply outside_below; [exact E|left; reflexivity|discriminate|auto]|].
    destruct (IHl _ I) as (y & J & O). eapply outside_below; [exact E| |discriminate|exact O]. right. apply in_flat_map. exists (Some y). split; [exact J|left; reflexivity].
  - intros r c x y F G X Y E _ IHf _ IHg n I. cbn [stray] in I. apply in_app_or in I.
    destruct I as [I|I]; [eapply outside_below; [exact E|left; reflexivity|discriminate|auto]|eapply outside_below; [exact E|right; left; reflexivity|discriminate|auto]].
  - intros r q m f s G X E _ IH n I. cbn [stray] in I. apply without_inv in I. destruct I as [I N]. eapply outside_below; [exact E|left; reflexivity| |auto]. intros ? ? ? ? ? K. injection K as <- <- <- <- <-. exact N.
  - intros r q m f x s R G X Y E _ IHr _ IH n I. cbn [stray] in I. apply without_inv in I. destruct I as [I N]. apply in_app_or in I.
    assert (K : forall q0 m0 f0 rs sc, CBinding q m f (Some x) (Some s) = CBinding q0 m0 f0 rs sc -> n <> m0) by (intros ? ? ? ? ? K; injection K as <- <- <- <- <-; exact N).
    destruct I as [I|I]; [eapply outside_below; [exact E|left; reflexivity|exact K|auto]|eapply outside_below; [exact E|right; left; reflexivity|exact K|auto]].
  - intros r p P n I. eapply prop_outside; eassumption.
  - intros r x F X E _ IH n I. eapply outside_below; [exact E|left; reflexivity|discriminate|auto].
  - intros r v T n I. eapply thing_outside; eassumption.
  - intros r s f E n [].
  - intros r x F X E _ IH n I. eapply outside_below; [exact E|left; reflexivity|discriminate|auto].
  - intros r xs l X E _ IH n I. destruct (IH _ I) as (y & J & O). eapply outside_below; [exact E| |discriminate|exact O]. apply in_flat_map. exists (Some y). split; [exact J|left; reflexivity].
  - intros n [].
  - intros xs l X _ IH n I. destruct (IH _ I) as (y & J & O). exists y. split; [right; exact J|exact O].
  - intros x xs a l X Y _ IHa _ IHl n I. cbn [stray_r] in I. apply in_app_or in I. destruct I as [I|I]; [exists x; split; [left; reflexivity|auto]|]. destruct (IHl _ I) as (y & J & O). exists y. split; [right; exact J|exact O].
Qed.
End Outside.
Theorem scoped_stray h h1 r F X : bare h = bare h1 -> at_f h1 X r F -> scoped (r, h) -> stray F = [].
Proof.
  intros B A Sc. destruct (stray F) as [|n l] eqn:E; [reflexivity|]. exfalso.
  destruct (proj1 (at_outside h1) _ _ _ A n) as (sc & x & d & O & R & D & V); [rewrite E; left; reflexivity|].
  apply V. exists d. split; [|exact D]. apply (Sc sc x d); cbn [fst snd]; [eapply bare_occurs; [symmetry; exact B|exact O]|eapply bare_refers; [symmetry; exact B|exact R]].
Qed.

(** ** Discourses *)

(** The tree before its variables are numbered, and afterwards. *)
Lemma clauses_tree U d r h : outcome U d (Ok (Some (r, h))) ->
  (forall n, In n d -> sentence_item n -> covered U (o_letters diacritic) n = true) ->
  exists F h1 k X f l, conveys U (o_letters diacritic) d F /\ at_f h1 X r F /\ nums h1 k /\ visited h1 f r = Ok l /\ Simplify.renumber l 0 h1 = Ok h.
Proof.
  intros [_ [fuel O]] Fo. specialize (O fuel (le_n _)). unfold Simplify.interpret in O.
  destruct (discourse U (o_letters diacritic) fuel fuel d st0) as [[[x|] s]| |] eqn:D; cbn [bind] in O; try discriminate.
  destruct (discourse_clauses _ _ _ _ _ _ _ D Fo) as (G & t & k & X & It & A & On & Nu & _). clear D.
  unfold Simplify.simplify_statement in O. destruct (Simplify.add_hoa fuel x None (Simplify.SSt (s_heap s) [])) as [[u s1]| |] eqn:Ha; cbn [bind] in O; try discriminate.
  destruct (proj1 (ClauseHoa.hoa_all fuel) _ _ _ _ _ _ _ None Ha A On ltac:(constructor)) as (A1 & M1 & _). cbn [fst snd Simplify.x_heap Simplify.x_sub] in *.
  unfold Simplify.pred_vars in O. destruct (visited (Simplify.x_heap s1) fuel x) as [l| |] eqn:V; cbn [bind] in O; try discriminate.
  rewrite (proj1 (pred_vars_at _) _ _ _ A1 _ _ V) in O.
  destruct (Simplify.simplify _ fuel Simplify.RStatement x (Simplify.SSt (Simplify.x_heap s1) [])) as [[o s2]| |] eqn:Si; cbn [bind] in O; try discriminate.
  destruct (proj1 (simp_all _ fuel) _ _ _ _ X _ [] (fun _ => False) Si A1 On ltac:(auto) ltac:(constructor)) as (r' & X' & -> & A2 & _ & _ & M2). cbn [Simplify.x_heap] in M2.
  destruct (Simplify.sequence_var_nums fuel (Simplify.x_heap s2) r') as [h2| |] eqn:Sq; cbn [bind] in O; try discriminate. injection O as -> ->.
  unfold Simplify.sequence_var_nums in Sq. destruct (visited (Simplify.x_heap s2) fuel r) as [l'| |] eqn:V'; cbn [bind] in Sq; try discriminate.
  assert (N2 := moves_nums _ _ _ _ M2 (moves_nums _ _ _ _ M1 Nu)).
  eexists _, (Simplify.x_heap s2), _, X', fuel, l'. split; [exists G, t; split; [exact It|reflexivity]|]. split; [exact A2|]. split; [exact N2|]. split; assumption.
Qed.

Theorem covered_scoped U d t F : outcome U d (Ok (Some t)) ->
  (forall n, In n d -> sentence_item n -> covered U (o_letters diacritic) n = true) ->
  conveys U (o_letters diacritic) d F -> scoped t <-> stray F = [].
Proof.
  destruct t as [r h]. intros O Co M. destruct (clauses_tree _ _ _ _ O Co) as (F' & h1 & k & X & f & l & M' & A & Nu & V & Rn).
  assert (F' = F) by (eapply ClauseOne.conveys_one; eassumption). subst F'. assert (B : bare h = bare h1) by (eapply renumber_bare, Rn).
  split; [eapply scoped_stray; eassumption|eapply stray_scoped; eassumption].
Qed.

Theorem covered_shown U d t s F : outcome U d (Ok (Some t)) -> plain_upper U -> toaq_names (snd t) ->
  (forall n, In n d -> sentence_item n -> covered U (o_letters diacritic) n = true) ->
  conveys U (o_letters diacritic) d F -> stray F = [] -> prints U (Some t) s ->
  exists name, told_apart name F /\ (forall x, Shown.var_name (name x) = true) /\
    (s = form_text name F \/ s = (form_text name F ++ ".")%string).
Proof.
  destruct t as [r h]. intros O PU TN Co M St [pf P]. destruct (clauses_tree _ _ _ _ O Co) as (F' & h1 & k & X & f & l & M' & A & Nu & V & Rn).
  assert (F' = F) by (eapply ClauseOne.conveys_one; eassumption). subst F'. assert (B : bare h = bare h1) by (eapply renumber_bare, Rn).
  assert (Sc := stray_scoped _ _ _ _ _ _ B Nu A St). assert (Vh : visited h f r = Ok l) by (rewrite (visited_bare _ _ B); exact V).
  assert (Sm := scoped_same _ _ _ _ _ Vh Rn B Sc).
  assert (Ap : forall x y, In x l -> In y l -> introduces h x = true -> introduces h y = true -> number h x = number h y -> x = y).
  { intros x y Ix Iy Jx Jy. apply (proj2 (ShownNums.introduced _ _ _ _ Rn)); try assumption; rewrite <- (bare_introduces _ _ _ B); assumption. }
  assert (Re : ShownHeap.reaches h1 l r) by (intros z D; eapply ShownHeap.desc_visited; eassumption).
  specialize (P (pf + f) ltac:(lia)).
  destruct (ShownNums.print_capped U (pf + f) r h s) as (names & body & Sh & Inj & Vn & E).
  { intros l' seen V' Vr v c I. eapply (var_runes_cap U h (pf + f) PU TN l' [] seen); [contradiction|exact Vr|exact I]. }
  { exact P. }
  exists (fun x => show_var false names (ShownHeap.renamed h h1 l x)).
  assert (T := proj1 (at_show h h1 k l B Nu Sm names) _ _ _ A _ _ Re Sh). subst body.
  split; [|split; [intros x; apply Vn|destruct names; auto]].
  intros x y Ix Iy Exy. apply Inj in Exy. eapply (renamed_form h h1 k l B Nu Sm Ap); eassumption.
Qed.
