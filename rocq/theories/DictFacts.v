(** Proofs about the model of dict.Load. *)

From Coq Require Import String List Bool ZArith.
From Verif Require Import Base Utf8 Tone Dict.
Import ListNotations.
Open Scope list_scope.

Lemma fold_store tl es : forall acc k w,
  slookup k (fold_left (store tl) es acc) = Some w <->
  (exists pre e post, es = pre ++ e :: post /\ tl (strip (dw_word e)) = k /\
     (forall e', In e' post -> tl (strip (dw_word e')) <> k) /\
     w = DWord k (dw_def e) (dw_by e) (dw_score e)) \/
  ((forall e', In e' es -> tl (strip (dw_word e')) <> k) /\ slookup k acc = Some w).
Proof.
  induction es as [|e es IH]; intros acc k w; cbn [fold_left].
  - split; [intros H; right; split; [intros e' []|exact H]|].
    intros [(pre & e & post & E & _)|[_ H]]; [destruct pre; discriminate|exact H].
  - rewrite IH. clear IH. unfold store at 1, normal. cbn [slookup].
    destruct (String.eqb_spec k (tl (strip (dw_word e)))) as [->|NE]; split.
    + intros [(pre & e1 & post & -> & H)|[H1 H2]].
      * left. exists (e :: pre), e1, post. split; [reflexivity|exact H].
      * left. exists [], e, es. split; [reflexivity|]. split; [reflexivity|].
        split; [exact H1|congruence].
    + intros [(pre & e1 & post & E & H1 & H2 & H3)|[H1 _]].
      * destruct pre as [|p pre]; injection E as <- ->.
        -- right. split; [exact H2|congruence].
        -- left. exists pre, e1, post. auto.
      * elim (H1 e); [left|]; reflexivity.
    + intros [(pre & e1 & post & -> & H)|[H1 H2]].
      * left. exists (e :: pre), e1, post. split; [reflexivity|exact H].
      * right. split; [|exact H2]. intros e' [<-|He]; [congruence|auto].
    + intros [(pre & e1 & post & E & H1 & H2 & H3)|[H1 H2]].
      * destruct pre as [|p pre]; injection E as <- ->; [congruence|].
        left. exists pre, e1, post. auto.
      * right. split; [|exact H2]. intros e' He. apply H1. right. exact He.
Qed.

Lemma load_entries tl r es m : entries r = Some es -> load tl r = Ok (LMap m) ->
  forall k w, slookup k m = Some w <->
    exists pre e post, es = pre ++ e :: post /\ tl (strip (dw_word e)) = k /\
      (forall e', In e' post -> tl (strip (dw_word e')) <> k) /\
      w = DWord k (dw_def e) (dw_by e) (dw_score e).
Proof.
  intros E H k w. unfold load in H. rewrite E in H.
  destruct (success r); [|destruct (error r); discriminate].
  cbn [negb] in H. injection H as <-. rewrite fold_store. cbn [slookup].
  split; [intros [H|[_ H]]; [exact H|discriminate]|auto].
Qed.

Lemma last_match {A} (f : A -> string) es k :
  (exists e, In e es /\ f e = k) ->
  exists pre e post, es = pre ++ e :: post /\ f e = k /\ (forall e', In e' post -> f e' <> k).
Proof.
  induction es as [|x es IH]; [intros (e & [] & _)|].
  intros (e & I & K).
  assert (D : (exists e, In e es /\ f e = k) \/ (forall e, In e es -> f e <> k)).
  { clear. induction es as [|x es IH]; [right; intros e []|].
    destruct IH as [(e & H1 & H2)|H]; [left; exists e; split; [right|]; assumption|].
    destruct (string_dec (f x) k) as [Ex|Ex].
    - left. exists x. split; [left; reflexivity|exact Ex].
    - right. intros e [<-|He]; [exact Ex|apply H, He]. }
  destruct D as [D|D].
  - destruct (IH D) as (pre & e1 & post & -> & H). exists (x :: pre), e1, post. auto.
  - destruct I as [->|I]; [|elim (D e I K)].
    exists [], e, es. auto.
Qed.

Lemma load_keys tl r es m : entries r = Some es -> load tl r = Ok (LMap m) ->
  forall k, (exists w, slookup k m = Some w) <->
    exists e, In e es /\ tl (strip (dw_word e)) = k.
Proof.
  intros E H k. split.
  - intros (w & L). apply (load_entries _ _ _ _ E H) in L as (pre & e & post & -> & K & _).
    exists e. split; [apply in_or_app; right; left; reflexivity|exact K].
  - intros G. apply (last_match (fun e => tl (strip (dw_word e)))) in G.
    destruct G as (pre & e & post & -> & K & N).
    eexists. apply (load_entries _ _ _ _ E H). exists pre, e, post. eauto.
Qed.

Lemma load_panic_iff tl r :
  load tl r = Panic PRuntime <->
  (success r = true /\ entries r = None) \/ (success r = false /\ error r = None).
Proof.
  unfold load. destruct (success r), (entries r), (error r); cbn [negb];
    intuition (try discriminate).
Qed.

Lemma load_can_panic tl : exists r, load tl r = Panic PRuntime.
Proof. exists (Response true None None). reflexivity. Qed.

Lemma load_otherwise tl r :
  load tl r <> Panic PRuntime -> exists v, load tl r = Ok v.
Proof.
  unfold load. destruct (success r), (entries r), (error r); cbn [negb]; intros H;
    try congruence; eauto.
Qed.

Lemma load_panic_exact tl r :
  (load tl r = Panic PRuntime <->
   (success r = true /\ entries r = None) \/ (success r = false /\ error r = None)) /\
  (load tl r <> Panic PRuntime -> exists v, load tl r = Ok v).
Proof. split; [apply load_panic_iff|apply load_otherwise]. Qed.
