(** What the rules of Clauses.v say of orderly sentences. *)

From Coq Require Import String NArith List Bool Arith Lia.
From Verif Require Import Base PegSyntax Ast AstSorts Logic LogicWords LogicSpec ScopeSpec Meaning Clauses ClauseHeap ClauseOne Truth TruthFacts ClauseNotation Orderly.
From Verif Require MeaningNames MeaningOne MeaningCases.
Import ListNotations.
Open Scope string_scope.
Open Scope list_scope.
Open Scope nat_scope.

(** ** The unbound variables of a formula *)

Definition free_var (v : thing) : list nat := match v with Bound _ _ => [] | Free x => [x] end.
Fixpoint frees_s (p : property) : list nat :=
  match p with
  | Named _ => []
  | Unnamed v => free_var v
  | Serial p q => frees_s p ++ frees_s q
  end.
Fixpoint frees (F : form) : list nat :=
  match F with
  | Says p l => frees_p p ++ frees_r l
  | Joined _ F G => frees F ++ frees G
  | Binds _ _ _ G => frees G
  | Limits _ _ _ R G => frees R ++ frees G
  end
with frees_p (p : prop) : list nat :=
  match p with Simple p => frees_s p | Abstract F => frees F end
with frees_t (a : term) : list nat :=
  match a with
  | Var v => free_var v
  | Quoted _ _ => []
  | That F => frees F
  | Several l => frees_r l
  end
with frees_r (l : row) : list nat :=
  match l with
  | Nil => []
  | Gap l => frees_r l
  | Item a l => frees_t a ++ frees_r l
  end.

Lemma numbers_s_split p x : In x (numbers_s p) -> In x (stray_s p) \/ In x (frees_s p).
Proof. induction p as [s|v|p IHp q IHq]; cbn; [tauto|destruct v; cbn; tauto|]. rewrite !in_app_iff. tauto. Qed.
Lemma loose_split :
  (forall F x, In x (loose F) -> In x (stray F) \/ In x (frees F)) /\
  (forall p x, In x (loose_p p) -> In x (stray_p p) \/ In x (frees_p p)) /\
  (forall a x, In x (loose_t a) -> In x (stray_t a) \/ In x (frees_t a)) /\
  (forall l x, In x (loose_r l) -> In x (stray_r l) \/ In x (frees_r l)).
Proof.
  apply forms_ind; cbn [loose stray frees loose_p stray_p frees_p loose_t stray_t frees_t loose_r stray_r frees_r].
  - intros p Hp l Hl x I. rewrite !in_app_iff in *. destruct I as [I|I]; [apply Hl in I|apply Hp in I]; tauto.
  - intros c F HF G HG x I. rewrite !in_app_iff in *. destruct I as [I|I]; [apply HF in I|apply HG in I]; tauto.
  - intros q x f G HG y I. apply in_without in I as [I N]. apply HG in I as [I|I]; [left; apply in_without|]; auto.
  - intros q x f R HR G HG y I. apply in_without in I as [I N]. apply in_app_or in I as [I|I]; [apply HR in I|apply HG in I]; (destruct I as [I|I]; [left; apply in_without; rewrite in_app_iff|rewrite in_app_iff]; auto).
  - intros p x. apply numbers_s_split.
  - intros F HF. exact HF.
  - intros v x. destruct v; cbn; tauto.
  - intros s f x [].
  - intros F HF. exact HF.
  - intros l Hl. exact Hl.
  - intros x [].
  - intros l Hl. exact Hl.
  - intros a Ha l Hl x I. rewrite !in_app_iff in *. destruct I as [I|I]; [apply Ha in I|apply Hl in I]; tauto.
Qed.
Lemma stray_occurring :
  (forall F x, In x (stray F) -> In x (occurring F)) /\ (forall p x, In x (stray_p p) -> In x (occurring_p p)) /\
  (forall a x, In x (stray_t a) -> In x (occurring_t a)) /\ (forall l x, In x (stray_r l) -> In x (occurring_r l)).
Proof.
  apply forms_ind; cbn [stray occurring stray_p occurring_p stray_t occurring_t stray_r occurring_r].
  - intros p Hp l Hl x I. rewrite !in_app_iff in *. destruct I; auto.
  - intros c F HF G HG x I. rewrite !in_app_iff in *. destruct I; auto.
  - intros q x f G HG y I. apply in_without in I as [I N]. auto.
  - intros q x f R HR G HG y I. apply in_without in I as [I N]. rewrite !in_app_iff in *. destruct I; auto.
  - intros p x. induction p as [s|v|p IHp q IHq]; cbn; [tauto|destruct v; cbn; tauto|]. rewrite !in_app_iff. tauto.
  - intros F HF. exact HF.
  - auto.
  - auto.
  - intros F HF. exact HF.
  - intros l Hl. exact Hl.
  - auto.
  - intros l Hl. exact Hl.
  - intros a Ha l Hl x I. rewrite !in_app_iff in *. destruct I; auto.
Qed.

(** ** What is known at each point *)

Definition counted_in (g : scene) : list nat := map fst (filter snd (v_bound g)).
Definition bound_names (g : scene) : list nat := map snd (v_vars g).
Definition hoa_in (g : scene) : list nat := match v_hoa g with None => [] | Some x => [x] end.
Definition avail (g : scene) : list nat := bound_names g ++ hoa_in g.
Definition outs (t : told) : list nat := map fst (n_outer t).
Definition between (t t' : told) (x : nat) : Prop := n_next t <= x < n_next t'.

Record okay (g : scene) (t : told) : Prop := Okay {
  k_names : incl (bound_names g) (counted_in g);
  k_bound : forall x, In x (map fst (v_bound g)) -> x < n_next t;
  k_hoa : forall x, v_hoa g = Some x -> x < n_next t }.
(** hoa stands for something that counts. *)
Definition shown_hoa (g : scene) : Prop := forall x, v_hoa g = Some x -> In x (counted_in g).

Fixpoint lined (seen : list nat) (l : list (nat * form)) : Prop :=
  match l with
  | [] => True
  | (x, R) :: l => incl (stray R) (x :: seen) /\ lined (x :: seen) l
  end.
Record fine (t : told) : Prop := Fine {
  o_lined : lined [] (n_outer t);
  o_each : forall x R, In (x, R) (n_outer t) -> tame R = true /\ own x [] R = true;
  o_lt : forall x, In x (outs t) -> x < n_next t;
  o_lifted : forall k x, In (k, x) (n_lifted t) -> In x (outs t) }.
Definition grows (t t' : told) : Prop :=
  n_next t <= n_next t' /\ incl (outs t) (outs t') /\ (forall x, In x (outs t') -> In x (outs t) \/ between t t' x).

Lemma grows_refl t : grows t t.
Proof. split; [lia|]. split; [apply incl_refl|auto]. Qed.
Lemma grows_trans t t1 t2 : grows t t1 -> grows t1 t2 -> grows t t2.
Proof.
  intros (L & I & O) (L' & I' & O'). split; [lia|]. split; [eapply incl_tran; eauto|]. intros x J. unfold between in *.
  destruct (O' x J) as [J'|B]; [destruct (O x J'); [auto|right; lia]|right; lia].
Qed.
Lemma grows_up t i : n_next t <= i -> grows t (up_to t i).
Proof. intros L. split; [exact L|]. split; [apply incl_refl|auto]. Qed.
Lemma fine_up t i : n_next t <= i -> fine t -> fine (up_to t i).
Proof. intros L [A B C D]. constructor; auto. intros x I. cbn. specialize (C x I). lia. Qed.
Lemma okay_grows g t t' : grows t t' -> okay g t -> okay g t'.
Proof. intros (L & _) [A B C]. constructor; [exact A|intros x I; specialize (B x I); lia|intros x I; specialize (C x I); lia]. Qed.

Lemma lined_app l m : forall seen, lined seen (l ++ m) <-> lined seen l /\ lined (rev (map fst l) ++ seen) m.
Proof.
  induction l as [|[x R] l IH]; intros seen; cbn; [tauto|]. rewrite IH, <- app_assoc. cbn. tauto.
Qed.
Lemma fine_bound t x R : fine t -> x < n_next t -> incl (stray R) (x :: outs t) -> tame R = true -> own x [] R = true ->
  fine (bound_outside t x R).
Proof.
  intros [A B C D] L I T O. constructor; cbn [n_outer n_next n_lifted bound_outside].
  - apply lined_app. split; [exact A|]. cbn. split; [|trivial]. intros y J. destruct (I y J) as [<-|K]; [now left|right]. rewrite app_nil_r. rewrite <- in_rev. exact K.
  - intros y S J. apply in_app_or in J as [J|[[= <- <-]|[]]]; auto.
  - intros y J. unfold outs in J. cbn in J. rewrite map_app in J. apply in_app_or in J as [J|[<-|[]]]; [specialize (C y J)|]; cbn; lia.
  - intros k y J. unfold outs. cbn. rewrite map_app. apply in_or_app. left. eapply D, J.
Qed.
Lemma outs_bound t x R : outs (bound_outside t x R) = outs t ++ [x].
Proof. unfold outs. cbn. now rewrite map_app. Qed.
Lemma grows_bound t t' x R : grows t t' -> between t t' x -> grows t (bound_outside t' x R).
Proof.
  intros (L & I & O) B. split; [exact L|]. rewrite outs_bound. split; [intros y J; apply in_or_app; auto|].
  intros y J. apply in_app_or in J as [J|[<-|[]]]; [exact (O y J)|right; exact B].
Qed.
Lemma fine_lifted t k x : fine t -> In x (outs t) -> fine (lifted_as t k x).
Proof. intros [A B C D] I. constructor; auto. intros k' y [[= <- <-]|J]; [exact I|eapply D, J]. Qed.

(** ** Arguments *)

Definition vars_of (a : list (thing * nat)) : list nat := flat_map (fun e => of_var (fst e)) a.
Definition frees_of (a : list (thing * nat)) : list nat := flat_map (fun e => free_var (fst e)) a.

Lemma placed_in a l x : placed a l -> In (Some x) l -> exists q, In (x, q) a.
Proof.
  intros (_ & Li & k & Fr) I. apply In_nth_error in I. destruct I as (p & N).
  destruct (is_linked a p) eqn:Lk.
    - assert (E : exists z, linked_at a p z).
      { clear - Lk. induction a as [|[z q] a IH]; [discriminate|]. unfold is_linked in Lk. cbn [existsb snd] in Lk.
        destruct (existsb (fun y => snd y =? S p) a) eqn:R.
        - destruct (IH R) as (w & pre & post & -> & D). exists w, ((z, q) :: pre), post. auto.
        - rewrite orb_false_r in Lk. apply Nat.eqb_eq in Lk. subst q. exists z, [], a. split; [reflexivity|]. intros w K.
          assert (T : existsb (fun y => snd y =? S p) a = true) by (apply existsb_exists; exists (w, S p); split; [exact K|apply Nat.eqb_refl]). congruence. }
      destruct E as (z & E). assert (M := Li _ _ E). rewrite N in M. injection M as ->. destruct E as (pre & post & -> & _). exists (S p). apply in_elt.
    - assert (In (Some x) (free_slots a l)).
      { unfold free_slots. apply in_map_iff. exists (p, Some x). split; [reflexivity|]. apply filter_In. split; [|cbn; rewrite Lk; reflexivity].
        assert (C : forall (m : list (option thing)) i, nth_error m p = Some (Some x) -> In (i + p, Some x) (combine (seq i (length m)) m)).
        { clear. revert p. intros p m. revert p. induction m as [|o m IH]; intros [|p] i E; try discriminate; cbn in *.
          - injection E as ->. rewrite Nat.add_0_r. left. reflexivity.
          - right. replace (i + S p) with (S i + p) by lia. apply IH, E. }
        apply (C l 0 N). }
      rewrite Fr in H. apply in_app_or in H. destruct H as [H|H]; [|apply repeat_spec in H; discriminate].
      apply in_map_iff in H. destruct H as (z & Z & H). injection Z as ->. unfold unlinked in H. apply in_map_iff in H. destruct H as ([w q] & E & H). cbn in E. subst w.
      apply filter_In in H. exists q. apply H.
Qed.
Lemma placed_whole a l : placed a l -> (forall v k, In (v, k) a -> k = 0) -> ~ In None l.
Proof.
  intros P Z. assert (E : a = map (fun x => (x, 0)) (map fst a)).
  { clear P. induction a as [|[v k] a IH]; [reflexivity|]. cbn. rewrite <- IH by (intros; eapply Z; right; eassumption). now rewrite (Z v k (or_introl eq_refl)). }
  rewrite E in P. rewrite (MeaningOne.placed_one _ _ _ P (MeaningCases.unlinked_placed (map fst a))). intros I. apply in_map_iff in I as (x & X & _). discriminate.
Qed.

Lemma row_stray l x : In x (stray_r (row_of l)) -> exists v, In (Some v) l /\ In x (of_var v).
Proof.
  induction l as [|[v|] l IH]; cbn; [tauto| |intros I; destruct (IH I) as (v & J & K); eauto].
  intros I. apply in_app_or in I as [I|I]; [eauto|destruct (IH I) as (w & J & K); eauto].
Qed.
Lemma row_frees l x : In x (frees_r (row_of l)) -> exists v, In (Some v) l /\ In x (free_var v).
Proof.
  induction l as [|[v|] l IH]; cbn; [tauto| |intros I; destruct (IH I) as (v & J & K); eauto].
  intros I. apply in_app_or in I as [I|I]; [eauto|destruct (IH I) as (w & J & K); eauto].
Qed.
Lemma row_tame l : tame_r (row_of l) = true.
Proof. induction l as [|[v|] l IH]; cbn; auto. Qed.
Lemma row_binders l : binders_r (row_of l) = [].
Proof. induction l as [|[v|] l IH]; cbn; auto. Qed.
Lemma row_preds l : as_predicates_r (row_of l) = [].
Proof. induction l as [|[v|] l IH]; cbn; auto. Qed.
Lemma row_whole l : ~ In None l -> whole (row_of l) = true.
Proof. induction l as [|[v|] l IH]; cbn; intros N; [reflexivity|apply IH; tauto|destruct N; auto]. Qed.

(** ** Predicates *)

Fixpoint each (Q : prop -> Prop) (P : predic) : Prop :=
  match P with Single p => Q p | Pair _ P1 P2 => each Q P1 /\ each Q P2 end.
Lemma each_mono (Q Q' : prop -> Prop) P : (forall p, Q p -> Q' p) -> each Q P -> each Q' P.
Proof. intros H. induction P as [p|c P1 IH1 P2 IH2]; cbn; [apply H|intros [A B]; auto]. Qed.

Definition a_word (p : prop) : Prop := exists s, p = Simple s /\ s <> Named "=".
Definition no_vars (p : prop) : Prop := exists s, p = Simple s /\ numbers_s s = [].

Definition prop_ok (g : scene) (t t' : told) (p : prop) : Prop :=
  incl (stray_p p) (avail g ++ outs t') /\ (forall x, In x (frees_p p) -> between t t' x) /\ (forall x, In x (binders_p p) -> between t t' x) /\
  tame_p p = true /\ (forall y f G, p = Abstract (Binds QLambda y f G) -> ~ In y (as_predicates G)) /\
  (forall x, In x (as_predicates (Says p Nil)) -> In x (bound_names g) \/ between t t' x).
Definition said (g : scene) (t : told) (bv fv : list nat) (F : form) (t' : told) : Prop :=
  incl (stray F) (avail g ++ outs t' ++ bv) /\ (forall x, In x (frees F) -> In x fv \/ between t t' x) /\ (forall x, In x (binders F) -> between t t' x) /\
  tame F = true /\ (forall x, In x (as_predicates F) -> In x (bound_names g) \/ between t t' x).

Lemma prop_ok_weaken g t t1 t2 t' p : grows t t1 -> grows t2 t' -> prop_ok g t1 t2 p -> prop_ok g t t' p.
Proof.
  intros (L & _ & _) (L2 & I2 & _) (A & B & C & D & E & F). unfold prop_ok, between in *. split; [|split; [|split; [|split; [exact D|split; [exact E|]]]]].
  - intros x I. specialize (A x I). rewrite in_app_iff in *. destruct A; auto.
  - intros x I. specialize (B x I). lia.
  - intros x I. specialize (C x I). lia.
  - intros x I. destruct (F x I); [auto|right; lia].
Qed.
Lemma said_weaken g t t1 bv fv bv' fv' F t2 t' : grows t t1 -> grows t2 t' -> incl bv bv' -> incl fv fv' -> said g t1 bv fv F t2 -> said g t bv' fv' F t'.
Proof.
  intros (L & _ & _) (L2 & I2 & _) Ib If (A & B & C & D & E). unfold said, between in *. split; [|split; [|split; [|split; [exact D|]]]].
  - intros x I. specialize (A x I). rewrite !in_app_iff in *. destruct A as [A|[A|A]]; auto.
  - intros x I. destruct (B x I); [auto|right; lia].
  - intros x I. specialize (C x I). lia.
  - intros x I. destruct (E x I); [auto|right; lia].
Qed.
Lemma said_both g t bv fv c F G t' : said g t bv fv F t' -> said g t bv fv G t' -> said g t bv fv (Joined c F G) t'.
Proof.
  intros (A & B & C & D & E) (A' & B' & C' & D' & E'). split; [|split; [|split; [|split]]]; cbn [stray frees binders tame as_predicates].
  - now apply incl_app.
  - intros x I. apply in_app_or in I as [I|I]; auto.
  - intros x I. apply in_app_or in I as [I|I]; auto.
  - now rewrite D, D'.
  - intros x I. apply in_app_or in I as [I|I]; auto.
Qed.
Lemma said_joined g t bv fv c F G t1 t2 : grows t t1 -> grows t1 t2 -> said g t bv fv F t1 -> said g t1 bv fv G t2 -> said g t bv fv (Joined c F G) t2.
Proof.
  intros G1 G2 S1 S2. apply said_both.
  - exact (said_weaken g t t bv fv bv fv F t1 t2 (grows_refl _) G2 (incl_refl _) (incl_refl _) S1).
  - exact (said_weaken g t t1 bv fv bv fv G t2 t2 G1 (grows_refl _) (incl_refl _) (incl_refl _) S2).
Qed.

Lemma said_row g t t' bv fv P l : each (prop_ok g t t') P ->
  (forall v, In (Some v) l -> (forall x, In x (of_var v) -> In x (avail g ++ outs t' ++ bv)) /\ (forall x, In x (free_var v) -> In x fv \/ between t t' x)) ->
  (~ In None l \/ each a_word P) -> said g t bv fv (said_of P (row_of l)) t'.
Proof.
  intros H V W. induction P as [p|c P1 IH1 P2 IH2]; cbn [said_of].
  - destruct H as (A & B & C & D & E & F). split; [|split; [|split; [|split]]]; cbn [stray frees binders tame as_predicates].
    + intros x I. apply in_app_or in I as [I|I]; [apply A in I; rewrite !in_app_iff in *; tauto|]. apply row_stray in I as (v & J & K). exact (proj1 (V v J) x K).
    + intros x I. apply in_app_or in I as [I|I]; [auto|]. apply row_frees in I as (v & J & K). exact (proj2 (V v J) x K).
    + intros x I. rewrite row_binders in I. exact (C x I).
    + rewrite D, row_tame. cbn [andb]. destruct W as [W|(s & -> & _)]; [|reflexivity].
      destruct p as [s|A0]; [reflexivity|]. destruct A0 as [| |q y f G|]; try reflexivity. destruct q; try reflexivity.
      rewrite (row_whole l W), andb_true_r. apply not_among. eapply E. reflexivity.
    + intros x I. rewrite row_preds in I. apply F. cbn [as_predicates as_predicates_r]. exact I.
  - destruct H as [H1 H2]. apply said_both; [apply IH1|apply IH2]; auto; destruct W as [W|[W1 W2]]; auto.
Qed.
Lemma calm_words P l : each a_word P -> calm (said_of P l) = true.
Proof.
  destruct P as [p|c P1 P2]; cbn; [|reflexivity]. intros (s & -> & N). cbn. destruct s; try reflexivity.
  destruct (String.eqb_spec name "="); [subst; congruence|reflexivity].
Qed.
Lemma calm_own F z zs : calm F = true -> own z zs F = true.
Proof.
  destruct F as [p l|c F G|q x f G|q x f R G]; cbn; intros C; try reflexivity; [|now rewrite C].
  destruct p as [s|A]; [|discriminate]. destruct s; try reflexivity. destruct l; try reflexivity. destruct l; try reflexivity. destruct l; try reflexivity. now rewrite C.
Qed.
Lemma wrapped_calm b f F : calm F = true -> calm (wrapped b f F) = true.
Proof. destruct b as [[[q x] [R|]]|]; cbn; auto. Qed.
Lemma no_vars_ok g t t' p : no_vars p -> prop_ok g t t' p.
Proof.
  intros (s & -> & N). assert (Z : forall x, In x (stray_s s) \/ In x (frees_s s) -> In x (numbers_s s)).
  { clear. induction s as [n|v|p IHp q IHq]; cbn; intros x; [tauto|destruct v; cbn; tauto|]. rewrite !in_app_iff. specialize (IHp x). specialize (IHq x). tauto. }
  rewrite N in Z. cbn in Z. split; [|split; [|split; [|split; [|split]]]]; cbn [stray_p frees_p binders_p].
  - intros x I. destruct (Z x). auto.
  - intros x I. destruct (Z x). auto.
  - intros x [].
  - cbn [tame_p]. destruct s; try reflexivity. now rewrite N.
  - discriminate.
  - intros x I. destruct s; cbn in I; try tauto. cbn in N. discriminate.
Qed.
Lemma plainly_plain P p : plainly P = Some p -> P = of_plain p.
Proof.
  revert p. induction P as [p0|c P1 IH1 P2 IH2]; cbn; intros p E.
  - destruct p0; [injection E as <-; reflexivity|discriminate].
  - destruct (plainly P1) as [p1|]; [|discriminate]. destruct (plainly P2) as [p2|]; [|discriminate]. injection E as <-. cbn. now rewrite <- (IH1 p1), <- (IH2 p2).
Qed.
