(** The enumeration of FuncSym.v is complete. *)

From Coq Require Import String Ascii NArith ZArith PArith List Bool FMapPositive Lia.
From Verif Require Import Base Utf8 Utf8Facts Tone PegSyntax Grammar Peg PegToaq PegSpec PegFacts PegToaqFacts Ast Action ActionSpec SpellSpec SpellFacts WordShape LogicWords FuncWords FuncSym.
Import ListNotations.
Open Scope nat_scope.
Open Scope list_scope.
Open Scope res_scope.

Lemma obind_some {A B} (o : option A) (f : A -> option B) y : obind o f = Some y -> exists x, o = Some x /\ f x = Some y.
Proof. destruct o; [eauto|discriminate]. Qed.
Lemma oflat_in {A B} (f : A -> option (list B)) l z : oflat f l = Some z -> forall x, In x l -> exists y, f x = Some y /\ incl y z.
Proof.
  revert z. induction l as [|x l IH]; intros z E x' [].
  - subst x'. cbn in E. apply obind_some in E as (y & E1 & E). apply obind_some in E as (t & E2 & E). injection E as <-. exists y. split; [exact E1|]. apply incl_appl, incl_refl.
  - cbn in E. apply obind_some in E as (y & E1 & E). apply obind_some in E as (t & E2 & E). injection E as <-. destruct (IH _ E2 _ H) as (u & F & I). exists u. split; [exact F|]. apply incl_appr, I.
Qed.
Lemma forall_real rs r : forallb real rs = true -> In r rs -> r <> rune_error.
Proof. intros F I. rewrite forallb_forall in F. apply real_spec, F, I. Qed.
Lemma lit_rune_spec s c : lit_rune s = Some c -> s = of_runes [c] /\ real c = true.
Proof.
  unfold lit_rune. destruct (runes s) as [|x [|]]; try discriminate. destruct (real x && _) eqn:E; [|discriminate].
  intros H. injection H as ->. apply andb_prop in E. destruct E as [A B]. apply String.eqb_eq in B. auto.
Qed.

Section Sound.
Variable is_punct : N -> bool.
Variable text : string.
Hypothesis no_punct : letters_no_punct is_punct.
Notation sem := (@sem toaq is_punct text).
Notation star := (@star toaq is_punct text).
Notation vsem := (@vsem toaq is_punct text).

Definition at_ (p : nat) : N * nat := decode_rune (sdrop p text).

(** The runes of the text from one position to another. *)
Inductive seen : nat -> list N -> nat -> Prop :=
  | Seen0 p : seen p [] p
  | SeenS p r w l q : at_ p = (r, w) -> r <> rune_error -> seen (p + w) l q -> seen p (r :: l) q.

Lemma seen_app p a q b s : seen p a q -> seen q b s -> seen p (a ++ b) s.
Proof. induction 1 as [|p r w l q E N S IH]; intros H; [exact H|]. cbn [app]. econstructor; eauto. Qed.

Definition after (k : tail) (p : nat) : Prop :=
  match k with
  | TBoundary => bnd (fst (at_ p)) = true
  | TTone => bnd (fst (at_ p)) = true \/ exists r w, at_ p = (r, w) /\ In r tone_runes /\ bnd (fst (at_ (p + w))) = true
  | TAny => innerb (fst (at_ p)) = false
  end.
Definition holds (s : state) (p : nat) : Prop := exists q, seen p (fst s) q /\ after (snd s) q.

Lemma term_class rs pos p x : vsem (EClass rs) pos (AOk p x) ->
  exists r w, at_ pos = (r, w) /\ In r rs /\ p = pos + w /\ x = (VStr (slice text pos p), []).
Proof. intros V. inversion V; subst. match goal with H : sem _ _ _ _ |- _ => inversion H; subst end. eauto 8. Qed.
Lemma lit_class s c pos p k err : lit_rune s = Some c -> sem (ELit s) pos (Some (p, k)) err -> exists w, at_ pos = (c, w) /\ p = pos + w.
Proof.
  intros L V. apply lit_rune_spec in L. destruct L as [-> R]. apply real_spec in R. inversion V; subst. unfold at_.
  match goal with H : sdrop _ _ = _ |- _ => rewrite H end. cbn [of_runes]. rewrite sapp_nil_r. rewrite decode_encode_app by apply R.
  eexists. split; [reflexivity|]. reflexivity.
Qed.
Lemma term_lit s c pos p x : lit_rune s = Some c -> vsem (ELit s) pos (AOk p x) ->
  exists r w, at_ pos = (r, w) /\ In r [c] /\ p = pos + w /\ x = (VStr (slice text pos p), []).
Proof. intros L V. inversion V; subst. match goal with H : sem _ _ _ _ |- _ => destruct (lit_class _ _ _ _ _ _ L H) as (w & E & ->) end. exists c, w. split; [exact E|]. split; [left; reflexivity|auto]. Qed.

Lemma gen_sound fuel : forall e L pos p x, gen fuel e = Some L -> vsem e pos (AOk p x) -> exists l, In l L /\ seen pos l p.
Proof.
  induction fuel as [|f IH]; intros e L pos p x G V; [discriminate|]. destruct e; cbn [gen] in G; try discriminate.
  - apply obind_some in G as (c & E & G). injection G as <-. destruct (term_lit _ _ _ _ _ E V) as (r & w & A & [<-|[]] & -> & _).
    apply lit_rune_spec in E. exists [c]. split; [left; reflexivity|]. econstructor; [exact A|apply real_spec, E|constructor].
  - destruct (forallb real rs) eqn:R; [|discriminate]. injection G as <-. destruct (term_class _ _ _ _ V) as (r & w & A & I & -> & _).
    exists [r]. split; [apply in_map_iff; eauto|]. econstructor; [exact A|eapply forall_real; eauto|constructor].
  - inversion V; subst; try discriminate. eapply IH; eauto.
  - apply obind_some in G as (l & G1 & G). apply obind_some in G as (l' & G2 & G). injection G as <-.
    inversion V; subst; try discriminate.
    match goal with H1 : vsem e1 _ _, H2 : vsem e2 _ _ |- _ => destruct (IH _ _ _ _ _ G1 H1) as (a & A1 & A2); destruct (IH _ _ _ _ _ G2 H2) as (b & B1 & B2) end.
    exists (a ++ b). split; [|eapply seen_app; eauto]. apply in_flat_map. exists a. split; [exact A1|]. apply in_map, B1.
  - apply obind_some in G as (l & G1 & G). apply obind_some in G as (l' & G2 & G). injection G as <-.
    inversion V; subst; try discriminate.
    + match goal with H : vsem e1 _ (AOk _ _) |- _ => destruct (IH _ _ _ _ _ G1 H) as (a & A1 & A2) end. exists a. split; [apply in_app_iff; auto|exact A2].
    + match goal with H : vsem e2 _ (AOk _ _) |- _ => destruct (IH _ _ _ _ _ G2 H) as (a & A1 & A2) end. exists a. split; [apply in_app_iff; auto|exact A2].
  - apply obind_some in G as (l & G1 & G). injection G as <-. inversion V; subst; try discriminate.
    + match goal with H : vsem e _ (AOk _ _) |- _ => destruct (IH _ _ _ _ _ G1 H) as (a & A1 & A2) end. exists a. split; [right; exact A1|exact A2].
    + exists []. split; [left; reflexivity|constructor].
  - inversion V; subst; try discriminate. eapply IH; eauto.
  - inversion V; subst; try discriminate. eapply IH; eauto.
  - inversion V; subst; try discriminate. eapply IH; eauto.
Qed.

(** ** Boundaries *)

(** The runes of a choice of classes. *)
Fixpoint classes (fuel : nat) (e : expr) : option (list N) :=
  match fuel with
  | O => None
  | S f =>
      match e with
      | EClass rs => Some rs
      | ECall r => classes f (r_body (toaq r))
      | ESub e => classes f e
      | EChoice a b => obind (classes f a) (fun l => obind (classes f b) (fun l' => Some (l ++ l')))
      | _ => None
      end
  end.
Lemma classes_fail fuel : forall e L pos err, classes fuel e = Some L -> sem e pos None err -> ~ In (fst (at_ pos)) L.
Proof.
  induction fuel as [|f IH]; intros e L pos err C S; [discriminate|]. destruct e; cbn [classes] in C; try discriminate.
  - injection C as <-. inversion S; subst. unfold at_. match goal with H : decode_rune _ = _ |- _ => rewrite H end. assumption.
  - inversion S; subst. eapply IH; eauto.
  - apply obind_some in C as (l & C1 & C). apply obind_some in C as (l' & C2 & C). injection C as <-. inversion S; subst.
    rewrite in_app_iff. intros [I|I]; revert I; [eapply (IH e1)|eapply (IH e2)]; eauto.
  - inversion S; subst. eapply IH; eauto.
Qed.
Lemma classes_ok fuel : forall e L pos p k err, classes fuel e = Some L -> sem e pos (Some (p, k)) err -> exists r w, at_ pos = (r, w) /\ In r L /\ p = pos + w.
Proof.
  induction fuel as [|f IH]; intros e L pos p k err C S; [discriminate|]. destruct e; cbn [classes] in C; try discriminate.
  - injection C as <-. inversion S; subst. eauto 8.
  - inversion S; subst. eapply IH; eauto.
  - apply obind_some in C as (l & C1 & C). apply obind_some in C as (l' & C2 & C). injection C as <-. inversion S; subst.
    + destruct (IH e1 _ _ _ _ _ C1 ltac:(eassumption)) as (r & w & A & I & E). exists r, w. rewrite in_app_iff. auto.
    + destruct (IH e2 _ _ _ _ _ C2 ltac:(eassumption)) as (r & w & A & I & E). exists r, w. rewrite in_app_iff. auto.
  - inversion S; subst. eapply IH; eauto.
Qed.

Lemma tone_classes : exists L, classes 20 (ECall r_tone) = Some L /\ (forall r, In r L <-> In r tone_runes).
Proof.
  destruct (classes 20 (ECall r_tone)) as [L|] eqn:E; vm_compute in E; [|discriminate]. injection E as <-. eexists. split; [reflexivity|].
  intros r. unfold tone_runes. cbn [In]. split; intros H; repeat (destruct H as [H|H]; [subst r; tauto|]); destruct H.
Qed.
Lemma no_tone pos err : sem (ECall r_tone) pos None err -> ~ In (fst (at_ pos)) tone_runes.
Proof. intros S. destruct tone_classes as (L & E & H). rewrite <- H. eapply classes_fail; eauto. Qed.
Lemma a_tone pos p k err : sem (ECall r_tone) pos (Some (p, k)) err -> exists r w, at_ pos = (r, w) /\ In r tone_runes /\ p = pos + w.
Proof. intros S. destruct tone_classes as (L & E & H). destruct (classes_ok _ _ _ _ _ _ _ E S) as (r & w & A & I & Q). exists r, w. rewrite <- H. auto. Qed.

Lemma bnd_not r : bnd r = true <-> ~ In r inner_runes /\ ~ In r tone_runes.
Proof.
  unfold bnd, innerb. rewrite andb_true_iff, !negb_true_iff, !mem_rune_false. reflexivity.
Qed.

Lemma boundary_body : r_body (toaq r_boundary) = EAction AEmpty [] (ESub (EChoice (ECall 134) (EChoice (ECall 222) (ECall 225)))).
Proof. vm_compute. reflexivity. Qed.
Lemma space_body : r_body (toaq 222) = ELabel 0 (EPlus (ESub (EChoice (EClass [9; 10; 13; 32; 46; 44; 58; 33]%N) (ECall 223)))).
Proof. vm_compute. reflexivity. Qed.
Lemma punct_body : r_body (toaq 223) = ESeq (ENot (ECall r_tone)) EPunct.
Proof. vm_compute. reflexivity. Qed.
Lemma eof_body : r_body (toaq 225) = ENot EAny.
Proof. vm_compute. reflexivity. Qed.
Lemma initial_gen : exists L, gen 60 (ECall 134) = Some L /\ Forall (fun l => match l with r :: _ => bnd r = true | [] => False end) L.
Proof.
  destruct (gen 60 (ECall 134)) as [L|] eqn:E; vm_compute in E; [|discriminate]. injection E as <-. eexists. split; [reflexivity|].
  repeat (constructor; [vm_compute; reflexivity|]). constructor.
Qed.

Ltac inv V := inversion V; subst; clear V; try discriminate.
Lemma boundary_next pos p x : vsem (ECall r_boundary) pos (AOk p x) -> bnd (fst (at_ pos)) = true.
Proof.
  intros V. inv V. rewrite boundary_body in *. match goal with H : vsem (EAction _ _ _) _ _ |- _ => inv H end.
  match goal with H : vsem (ESub _) _ _ |- _ => inv H end. match goal with H : vsem (EChoice _ _) _ _ |- _ => inv H end.
  - destruct initial_gen as (L & E & F). match goal with H : vsem (ECall _) _ _ |- _ => destruct (gen_sound _ _ _ _ _ _ E H) as (l & I & S) end.
    rewrite Forall_forall in F. specialize (F _ I). destruct l; [destruct F|]. inv S. match goal with H : at_ _ = _ |- _ => rewrite H end. exact F.
  - match goal with H : vsem (EChoice _ _) _ _ |- _ => inv H end.
    + match goal with H : vsem (ECall _) _ (AOk _ _) |- _ => inv H end. rewrite space_body in *.
      match goal with H : vsem (ELabel _ _) _ _ |- _ => inv H end. match goal with H : vsem (EPlus _) _ _ |- _ => inv H end.
      match goal with H : vsem (ESub _) _ _ |- _ => inv H end. match goal with H : vsem (EChoice _ _) _ _ |- _ => inv H end.
      * match goal with H : vsem (EClass _) _ _ |- _ => destruct (term_class _ _ _ _ H) as (r & w & A & I & _) end.
        rewrite A. cbn [fst]. cbn [In] in I. repeat (destruct I as [I|I]; [subst r; vm_compute; reflexivity|]). destruct I.
      * match goal with H : vsem (ECall 223) _ (AOk _ _) |- _ => inv H end. rewrite punct_body in *.
        match goal with H : vsem (ESeq _ _) _ _ |- _ => inv H end. match goal with H : vsem (ENot _) _ _ |- _ => inv H end.
        match goal with H : vsem (ECall r_tone) _ AFail |- _ => inv H end.
        match goal with H : sem (ECall r_tone) _ _ _ |- _ => pose proof (no_tone _ _ H) as T end.
        match goal with H : vsem EPunct _ _ |- _ => inv H end. match goal with H : sem EPunct _ _ _ |- _ => inv H end.
        apply bnd_not. split; [|exact T]. unfold at_ in *. match goal with H : decode_rune _ = _ |- _ => rewrite H end. cbn [fst]. intros I.
        apply no_punct in I. congruence.
    + match goal with H : vsem (ECall 225) _ _ |- _ => inv H end. rewrite eof_body in *. match goal with H : vsem (ENot _) _ _ |- _ => inv H end.
      match goal with H : vsem EAny _ _ |- _ => inv H end. match goal with H : sem EAny _ _ _ |- _ => inv H end.
      unfold at_. match goal with H : decode_rune _ = _ |- _ => rewrite H end. vm_compute. reflexivity.
Qed.

Lemma bnd_inner r : bnd r = true -> innerb r = false.
Proof. unfold bnd. rewrite andb_true_iff, negb_true_iff. tauto. Qed.
Lemma tone_inner r : In r tone_runes -> innerb r = false.
Proof. intros I. unfold tone_runes in I. cbn [In] in I. repeat (destruct I as [I|I]; [subst r; vm_compute; reflexivity|]). destruct I. Qed.

(** ** Question marks *)

Lemma questions_body : r_body (toaq r_questions) = EAction ASpace [0] (ELabel 0 (ESub (EPlus (ELit "?")))).
Proof. vm_compute. reflexivity. Qed.
Lemma qm_lit : lit_rune "?" = Some 63%N.
Proof. vm_compute. reflexivity. Qed.
Lemma qm_fail pos err : sem (ELit "?") pos None err -> fst (at_ pos) <> 63%N.
Proof.
  intros S. inv S. intros E. match goal with H : forall rest, _ |- _ => rename H into N end. unfold at_ in E.
  destruct (decode_rune (sdrop pos text)) as [r w] eqn:D. cbn [fst] in E. subst r.
  assert (X : 63%N <> rune_error) by (vm_compute; discriminate).
  assert (Q : sdrop pos text <> ""%string) by (intro Z; rewrite Z in D; injection D as D _; discriminate D).
  pose proof (decode_inv _ Q) as I. rewrite D in I. cbn [fst snd] in I. specialize (I X). apply (N (sdrop w (sdrop pos text))).
  etransitivity; [exact I|]. reflexivity.
Qed.
Lemma skip_eq l : skip l = match l with x :: l' => if N.eqb x 63 then skip l' else l | [] => [] end.
Proof. destruct l; reflexivity. Qed.
Lemma qm_star pos p k err : star (ELit "?") pos p k err -> forall l q y t, seen pos l q -> skip l = y :: t -> seen p (y :: t) q.
Proof.
  remember (ELit "?") as e eqn:Ee. induction 1 as [e pos err S|e pos p1 k1 e1 p2 k2 e2 S T IH]; subst; intros l q y t Se K.
  - apply qm_fail in S. rewrite skip_eq in K. destruct l as [|x l]; [discriminate|]. inv Se. match goal with H : at_ _ = _ |- _ => rewrite H in S; cbn [fst] in S; apply N.eqb_neq in S; rewrite S in K; injection K as <- <- ; econstructor; eauto end.
  - destruct (lit_class _ _ _ _ _ _ qm_lit S) as (w & A & ->). destruct l as [|x l]; [discriminate|]. inv Se. rewrite A in *. match goal with H : (_, _) = (_, _) |- _ => injection H as <- <- end.
    rewrite skip_eq, N.eqb_refl in K. eapply IH; eauto.
Qed.
Lemma questions_next pos p k err : sem (ECall r_questions) pos (Some (p, k)) err ->
  fst (at_ pos) = 63%N /\ forall l q y t, seen pos l q -> skip l = y :: t -> seen p (y :: t) q.
Proof.
  intros S. inv S. rewrite questions_body in *. repeat match goal with H : sem (EAction _ _ _) _ _ _ |- _ => inv H | H : sem (ELabel _ _) _ _ _ |- _ => inv H | H : sem (ESub _) _ _ _ |- _ => inv H | H : sem (EPlus _) _ _ _ |- _ => inv H end.
  match goal with H : sem (ELit _) _ _ _ |- _ => destruct (lit_class _ _ _ _ _ _ qm_lit H) as (w & A & ->) end. split; [rewrite A; reflexivity|].
  intros l q y t Se K. destruct l as [|x l]; [discriminate|]. inv Se. rewrite A in *. match goal with H : (_, _) = (_, _) |- _ => injection H as <- <- end.
  rewrite skip_eq, N.eqb_refl in K. eapply qm_star; eauto.
Qed.

(** ** The lookahead of a group *)

Lemma look_sound fuel : forall e k pos p x, look fuel e = Some k -> vsem e pos (AOk p x) -> after k pos.
Proof.
  induction fuel as [|f IH]; intros e k pos p x L V; [discriminate|]. destruct e; try discriminate; cbn [look] in L.
  - destruct (Pos.eqb_spec r r_boundary) as [->|]; [|discriminate]. injection L as <-. eapply boundary_next; eauto.
  - destruct e1; try discriminate. destruct e1; try discriminate.
    + destruct e2; try discriminate. destruct (Pos.eqb_spec r r_tone) as [->|]; [|discriminate]. destruct (Pos.eqb_spec r0 r_boundary) as [->|]; [|discriminate].
      injection L as <-. inv V. match goal with H : vsem (ECall r_boundary) _ _ |- _ => apply boundary_next in H end.
      match goal with H : vsem (EOpt _) _ _ |- _ => inv H end.
      * match goal with H : vsem (ECall r_tone) _ _ |- _ => inv H end. match goal with H : sem (ECall r_tone) _ _ _ |- _ => destruct (a_tone _ _ _ _ H) as (t & w & A & I & ->) end.
        right. eauto.
      * left. assumption.
    + destruct e1; try discriminate. destruct e1_1; try discriminate. destruct e1_2; try discriminate. destruct e2; try discriminate.
      destruct (Pos.eqb_spec r r_questions) as [->|]; [|discriminate]. destruct (Pos.eqb_spec r0 r_tone) as [->|]; [|discriminate]. destruct (Pos.eqb_spec r1 r_boundary) as [->|]; [|discriminate].
      injection L as <-. inv V. match goal with H : vsem (ECall r_boundary) _ _ |- _ => apply boundary_next in H end. cbn [after].
      match goal with H : vsem (EOpt _) _ _ |- _ => inv H end; [|apply bnd_inner; assumption].
      match goal with H : vsem (ESub _) _ _ |- _ => inv H end. match goal with H : vsem (EChoice _ _) _ _ |- _ => inv H end.
      * match goal with H : vsem (ECall r_questions) _ (AOk _ _) |- _ => inv H end. match goal with H : sem (ECall r_questions) _ _ _ |- _ => destruct (questions_next _ _ _ _ H) as [-> _] end. vm_compute. reflexivity.
      * match goal with H : vsem (ECall r_tone) _ (AOk _ _) |- _ => inv H end. match goal with H : sem (ECall r_tone) _ _ _ |- _ => destruct (a_tone _ _ _ _ H) as (t & w & A & I & ->) end.
        rewrite A. apply tone_inner, I.
  - inv V. eapply IH; eauto.
Qed.

Lemma vis_sound fuel : forall e L pos p x, vis fuel e = Some L -> vsem e pos (AOk p x) -> exists u, In u L /\ holds u pos.
Proof.
  induction fuel as [|f IH]; intros e L pos p x G V; [discriminate|]. destruct e; cbn [vis] in G; try discriminate.
  - inv V. eapply IH; eauto.
  - apply obind_some in G as (l & G1 & G). apply obind_some in G as (l' & G2 & G). injection G as <-. inv V.
    match goal with H1 : vsem e1 _ _, H2 : vsem e2 _ _ |- _ => destruct (gen_sound _ _ _ _ _ _ G1 H1) as (a & A1 & A2); destruct (IH _ _ _ _ _ G2 H2) as (b & B1 & q & B2 & B3) end.
    exists (a ++ fst b, snd b). split; [|exists q; split; [eapply seen_app; eauto|exact B3]].
    apply in_flat_map. exists a. split; [exact A1|]. apply in_map_iff. exists b. auto.
  - apply obind_some in G as (k & G1 & G). injection G as <-. inv V. exists ([], k). split; [left; reflexivity|]. exists p. split; [constructor|]. eapply look_sound; eauto.
  - inv V. eapply IH; eauto.
Qed.

(** ** The syllable *)

Lemma class_at_sound rs s L pos r w : class_at rs s = Some L -> holds s pos -> at_ pos = (r, w) -> In r rs ->
  exists s', In (s', (VStr (slice text pos (pos + w)), [])) L /\ holds s' (pos + w).
Proof.
  unfold class_at. destruct (forallb real rs) eqn:R; [|discriminate]. intros C (q & Se & Af) A I.
  assert (NE := forall_real _ _ R I). destruct (decode_slice _ _ _ _ A NE) as [-> _]. destruct s as [[|x l] k]; cbn [fst snd] in *.
  - inv Se. destruct (existsb bnd rs) eqn:B; [discriminate|].
    assert (NB : bnd r = false) by (destruct (bnd r) eqn:Z; [|reflexivity]; rewrite <- B; symmetry; apply existsb_exists; eauto).
    destruct k; cbn [after] in Af.
    + rewrite A in Af. cbn [fst] in Af. congruence.
    + rewrite A in Af. cbn [fst] in Af. destruct Af as [Af|(r' & w' & E & T & Af)]; [congruence|]. injection E as <- <-. injection C as <-.
      exists ([], TBoundary). split; [|exists (q + w); split; [constructor|exact Af]]. apply in_map_iff. exists r. split; [reflexivity|]. apply filter_In. split; [exact I|]. change (mem_rune r tone_runes = true). apply mem_rune_In. exact T.
    + rewrite A in Af. cbn [fst] in Af. destruct (existsb (fun r0 => mem_rune r0 tone_runes) rs) eqn:T; [discriminate|].
      assert (NT : mem_rune r tone_runes = false) by (destruct (mem_rune r tone_runes) eqn:Z; [|reflexivity]; rewrite <- T; symmetry; apply existsb_exists; eauto).
      unfold bnd in NB. rewrite Af, NT in NB. discriminate.
  - inv Se. rewrite A in *. match goal with H : (_, _) = (_, _) |- _ => injection H as <- <- end. apply mem_rune_In in I. rewrite I in C. injection C as <-.
    exists (l, k). split; [left; reflexivity|]. exists q. auto.
Qed.

Lemma starts_bnd_next pos l q : seen pos l q -> bnd (fst (at_ pos)) = true -> starts_bnd l = true.
Proof. intros S B. destruct l as [|x l]; [reflexivity|]. inv S. match goal with H : at_ _ = _ |- _ => rewrite H in B end. exact B. Qed.
Lemma ahead_sound e l q pos p x : seen pos l q -> vsem e pos (AOk p x) -> ahead e l = true.
Proof.
  intros S V. destruct e; try reflexivity; cbn [ahead].
  - destruct (Pos.eqb_spec r r_boundary) as [->|]; [|reflexivity]. eapply starts_bnd_next; [exact S|eapply boundary_next; exact V].
  - destruct e; try reflexivity. destruct e1; try reflexivity. destruct e1_1; try reflexivity. destruct e1_2; try reflexivity. destruct e2; try reflexivity.
    destruct (Pos.eqb_spec r r_questions) as [->|]; [|reflexivity]. destruct (Pos.eqb_spec r0 r_boundary) as [->|]; [|reflexivity]. destruct (Pos.eqb_spec r1 r_boundary) as [->|]; [|reflexivity].
    cbn [andb]. apply orb_true_iff. inv V. match goal with H : vsem (EChoice _ _) _ _ |- _ => inv H end.
    + right. match goal with H : vsem (ESeq _ _) _ _ |- _ => inv H end. match goal with H : vsem (ECall r_boundary) _ _ |- _ => apply boundary_next in H; rename H into B end.
      match goal with H : vsem (ECall r_questions) _ _ |- _ => inv H end. match goal with H : sem (ECall r_questions) _ _ _ |- _ => destruct (questions_next _ _ _ _ H) as [_ Q] end.
      destruct (skip l) as [|y t] eqn:K; [reflexivity|]. eapply starts_bnd_next; [eapply Q; eauto|exact B].
    + left. eapply starts_bnd_next; [exact S|]. match goal with H : vsem (ECall r_boundary) _ (AOk _ _) |- _ => eapply boundary_next; exact H end.
Qed.
Lemma pure_pos a args i j en : pure_act a = true -> run_action a args i j en = run_action a args 0 0 en.
Proof. intros P. unfold run_action. destruct (get_labels args en) as [vs|]; [|reflexivity]. destruct a; try discriminate; reflexivity. Qed.

Lemma sv_sound fuel : forall e s L pos p v en, sv fuel e s = Some L -> holds s pos -> vsem e pos (AOk p (v, en)) ->
  exists s', In (s', (v, en)) L /\ holds s' p.
Proof.
  induction fuel as [|f IH]; intros e s L pos p v en E H V; [discriminate|]. destruct e; cbn [sv] in E; try discriminate.
  - apply obind_some in E as (c & E1 & E). destruct (term_lit _ _ _ _ _ E1 V) as (r & w & A & I & -> & X). injection X as -> ->. eapply class_at_sound; eauto.
  - destruct (term_class _ _ _ _ V) as (r & w & A & I & -> & X). injection X as -> ->. eapply class_at_sound; eauto.
  - apply obind_some in E as (l & E1 & E). injection E as <-. inv V. match goal with X : vsem _ _ _ |- _ => destruct (IH _ _ _ _ _ _ _ E1 H X) as (s' & I & H') end.
    exists s'. split; [|exact H']. apply in_map_iff. eexists. split; [|exact I]. reflexivity.
  - apply obind_some in E as (l & E1 & E). inv V. match goal with X : vsem e1 _ _ |- _ => destruct (IH _ _ _ _ _ _ _ E1 H X) as (s1 & I1 & H1) end.
    destruct (oflat_in _ _ _ E _ I1) as (y & Ey & Iy). cbn [fst snd] in Ey. apply obind_some in Ey as (l2 & E2 & Ey). injection Ey as <-.
    match goal with X : vsem e2 _ _ |- _ => destruct (IH _ _ _ _ _ _ _ E2 H1 X) as (s2 & I2 & H2) end.
    exists s2. split; [|exact H2]. apply Iy, in_map_iff. eexists. split; [|exact I2]. reflexivity.
  - apply obind_some in E as (l & E1 & E). apply obind_some in E as (l' & E2 & E). injection E as <-. inv V.
    + match goal with X : vsem e1 _ (AOk _ _) |- _ => destruct (IH _ _ _ _ _ _ _ E1 H X) as (s' & I & H') end. exists s'. rewrite in_app_iff. auto.
    + match goal with X : vsem e2 _ (AOk _ _) |- _ => destruct (IH _ _ _ _ _ _ _ E2 H X) as (s' & I & H') end. exists s'. rewrite in_app_iff. auto.
  - inv V. destruct H as (q & Se & Af). match goal with X : vsem e _ _ |- _ => rewrite (ahead_sound _ _ _ _ _ _ Se X) in E end.
    injection E as <-. exists s. split; [left; reflexivity|]. exists q. auto.
  - inv V. injection E as <-. exists s. split; [left; reflexivity|]. exact H.
  - inv V. eapply IH; eauto.
  - apply obind_some in E as (l' & E1 & E). injection E as <-. inv V. match goal with X : vsem _ _ _ |- _ => destruct (IH _ _ _ _ _ _ _ E1 H X) as (s' & I & H') end.
    exists s'. split; [|exact H']. apply in_map_iff. eexists. split; [|exact I]. reflexivity.
  - destruct (pure_act a) eqn:P; [|discriminate]. apply obind_some in E as (l' & E1 & E). injection E as <-. inv V.
    match goal with X : vsem _ _ _ |- _ => destruct (IH _ _ _ _ _ _ _ E1 H X) as (s' & I & H') end.
    exists s'. split; [|exact H']. apply in_flat_map. eexists. split; [exact I|]. cbn [fst snd]. rewrite pure_pos in * by exact P.
    match goal with R : run_action _ _ _ _ _ = _ |- _ => rewrite R end. left. reflexivity.
Qed.

(** A word at a site is one of those enumerated. *)
Lemma site_sound n x y l pos p v en L : site n x y = Some L -> vsem (ESeq (EAnd (ECall x)) (ELabel l (ECall y))) pos (AOk p (v, en)) ->
  exists v', en = [(l, v')] /\ forall s, v' = VStr s -> In s L.
Proof.
  intros S V. unfold site in S. apply obind_some in S as (us & E1 & S). inv V.
  match goal with H : vsem (EAnd _) _ _ |- _ => inv H end. match goal with H : vsem (ELabel _ _) _ _ |- _ => inv H end.
  match goal with H : vsem (ECall x) _ _ |- _ => destruct (vis_sound _ _ _ _ _ _ E1 H) as (u & Iu & Hu) end.
  destruct (oflat_in _ _ _ S _ Iu) as (z & Ez & Iz). apply obind_some in Ez as (ws & E2 & Ez). injection Ez as <-.
  match goal with H : vsem (ECall y) _ (AOk _ (?w, ?en')) |- _ => destruct (sv_sound _ _ _ _ _ _ _ _ E2 Hu H) as (s' & I & _); exists w end.
  split; [reflexivity|]. intros s ->. apply Iz. apply in_flat_map. eexists. split; [exact I|]. left. reflexivity.
Qed.
End Sound.
