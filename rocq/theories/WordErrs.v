(** All errors of one parser that say anything are the same. *)

From Coq Require Import String NArith ZArith List Bool Arith Lia FMapPositive.
From Verif Require Import Base Utf8 Loc PegSyntax Grammar Peg PegToaq PegSpec PegFacts NodeFacts PegToaqFacts Parser ParserSpec FailFacts ParserFacts
  ActionSpec ActionFacts ApiFacts Dedup DedupSpec DedupFacts ErrFacts DedupApi MsgFacts WordSpec WordErr.
Import ListNotations.
Open Scope list_scope.
Open Scope Z_scope.

Section Api.
Variable is_punct : N -> bool.
Variable text : string.
Notation sem := (@PegSpec.sem toaq is_punct text).
Notation L := (String.length text).
Notation pinv := (ParserFacts.pinv is_punct text).
Notation cons := (PegFacts.cons toaq is_punct text).
Notation blank := (WordSpec.blank text).
Notation parse := (parse is_punct).

(** The failure tree of the full text is made once. *)
Lemma fail_kept m ep n st o f st' : cons m -> 0 <= ep -> fail_of toaq is_punct text m ep n r_full_text 0%nat st = Some (o, f, st') ->
  ((exists k, f = FNode k "" 0 "" []) /\ s_fail st' = s_fail st) \/
  (m2_get (s_fail st') r_full_text 0%nat = Some f /\ (m2_get (s_fail st) r_full_text 0%nat = None \/ s_fail st' = s_fail st)).
Proof.
  intros C Ep H. destruct n as [|n]; [discriminate|]. cbn [fail_of] in H. unfold failMemo in H.
  destruct (s_lastFail m <? Z.of_nat 0); [injection H as _ <- <-; left; split; [eauto|reflexivity]|].
  destruct (delta m r_full_text 0) as [dp de] eqn:D.
  destruct (Z.of_nat 0 + (de - 1) <? ep) eqn:B.
  { destruct (0 <? dp); injection H as _ <- <-; left; (split; [eauto|reflexivity]). }
  destruct (m2_get (s_fail st) r_full_text 0) as [g|] eqn:M.
  - assert (Nz : dp <> 0).
    { unfold delta in D. destruct (m2_get (s_delta m) r_full_text 0) as [[dp' de']|] eqn:E.
      - injection D as -> ->. destruct (C _ _ _ _ E) as (_ & res & err & _ & -> & _). destruct res as [[q k]|]; cbn; lia.
      - injection D as <- <-. apply Z.ltb_ge in B. cbn in B. lia. }
    right. destruct (dp <? 0) eqn:D1; [injection H as _ <- <-; auto|].
    destruct (0 <? dp) eqn:D2; [injection H as _ <- <-; auto|]. apply Z.ltb_ge in D1, D2. lia.
  - match type of H with match ?x with _ => _ end = _ => destruct x as [[[p kids] st1]|]; [|discriminate] end.
    injection H as _ <- <-. right. cbn [s_fail]. rewrite m2_gss. auto.
Qed.

(** The tree that is kept makes the error [e]. *)
Definition kept (e : perror) (p : parser) : Prop := exists f, m2_get (s_fail (q_fail p)) r_full_text 0%nat = Some f /\ simple_error text f = Ok e.

Lemma parse_err r start p e : pinv p -> fst (parse r start p) = Ok (Some e) ->
  blank e \/ kept e (snd (parse r start p)).
Proof.
  intros I E. destruct (le_lt_dec start L) as [Hs|Hs]; [|rewrite (parse_beyond _ _ _ _ _ I Hs) in E; discriminate].
  destruct (parse_case _ _ r start p I Hs) as (res & err & m1 & Se & _ & Cm & _ & _ & C). destruct res as [x|].
  { rewrite C in E. discriminate E. }
  destruct C as (o & f & fs & e' & h & Ef & Es & _ & _ & C). rewrite C in E |- *. cbn [fst snd] in *. injection E as ->.
  assert (Far : 0 <= err - Z.of_nat start) by (pose proof (sem_far _ _ _ _ _ _ toaq_wf _ _ _ Se Hs); lia).
  destruct (fail_kept _ _ _ _ _ _ _ Cm Far Ef) as [[[k ->] _]|[K _]].
  - left. eapply blank_error. exact Es.
  - right. exists f. auto.
Qed.

Lemma parse_kept r start p e0 : pinv p -> kept e0 p ->
  kept e0 (snd (parse r start p)) /\ forall e, fst (parse r start p) = Ok (Some e) -> blank e \/ e = e0.
Proof.
  intros I (g & G & Eg). destruct (le_lt_dec start L) as [Hs|Hs].
  2: { rewrite (parse_beyond _ _ _ _ _ I Hs). split; [exists g; auto|discriminate]. }
  destruct (parse_case _ _ r start p I Hs) as (res & err & m1 & Se & _ & Cm & _ & _ & C). destruct res as [x|].
  { rewrite C. split; [exists g; auto|discriminate]. }
  destruct C as (o & f & fs & e' & h & Ef & Es & _ & _ & C). rewrite C. cbn [fst snd].
  assert (Far : 0 <= err - Z.of_nat start) by (pose proof (sem_far _ _ _ _ _ _ toaq_wf _ _ _ Se Hs); lia).
  destruct (fail_kept _ _ _ _ _ _ _ Cm Far Ef) as [[[k ->] K]|[K [K'|K']]].
  - split; [exists g; cbn [q_fail]; rewrite K; auto|]. intros e [= <-]. left. eapply blank_error. exact Es.
  - congruence.
  - split; [exists g; cbn [q_fail]; rewrite K'; auto|]. intros e [= <-]. right. rewrite K', G in K. injection K as ->. congruence.
Qed.

Lemma kept_same e p q : same_tables p q -> kept e q -> kept e p.
Proof. intros [_ F] (f & A & B). exists f. rewrite F. auto. Qed.

Lemma gives_kept p e p' : Parser.reach is_punct text p -> gives is_punct p e p' -> blank e \/ kept e p'.
Proof.
  intros R H. pose proof (reach_pinv _ _ _ R) as I. destruct H as [[E ->]|[[E ->]|(offs & E & ->)]].
  - apply tree_err in E. destruct (parse_err _ _ _ _ I E); [auto|right; eapply kept_same; [apply tree_tables|assumption]].
  - apply text_err in E. destruct (parse_err _ _ _ _ I E); [auto|right; eapply kept_same; [apply text_tables|assumption]].
  - apply word_err in E. destruct (parse_err _ _ _ _ I E); [auto|right; eapply kept_same; [apply word_tables|assumption]].
Qed.

Lemma later_reach p q : Parser.reach is_punct text p -> later is_punct p q -> Parser.reach is_punct text q.
Proof. intros R H. induction H; [exact R|apply RTree|apply RWord|apply RText]; assumption. Qed.

Lemma later_kept e p q : Parser.reach is_punct text p -> kept e p -> later is_punct p q -> kept e q.
Proof.
  intros R K H. induction H as [|q H IH|q offs H IH|q H IH]; [exact K| | |];
    pose proof (reach_pinv _ _ _ (later_reach _ _ R H)) as I.
  - eapply kept_same; [apply tree_tables|]. apply parse_kept; assumption.
  - eapply kept_same; [apply word_tables|]. apply parse_kept; assumption.
  - eapply kept_same; [apply text_tables|]. apply parse_kept; assumption.
Qed.

Lemma gives_reach p e p' : Parser.reach is_punct text p -> gives is_punct p e p' -> Parser.reach is_punct text p'.
Proof. intros R [[_ ->]|[[_ ->]|(offs & _ & ->)]]; [apply RTree|apply RText|apply RWord]; exact R. Qed.

Theorem one_message p e p' q e' q' : Parser.reach is_punct text p -> gives is_punct p e p' -> later is_punct p' q ->
  gives is_punct q e' q' -> blank e \/ blank e' \/ e = e'.
Proof.
  intros R H Lq H'. destruct (gives_kept _ _ _ R H) as [B|K]; [auto|]. right.
  pose proof (gives_reach _ _ _ R H) as R'. pose proof (later_kept _ _ _ R' K Lq) as Kq.
  pose proof (reach_pinv _ _ _ (later_reach _ _ R' Lq)) as I.
  destruct H' as [[E _]|[[E _]|(offs & E & _)]].
  - apply tree_err in E. destruct (proj2 (parse_kept _ _ _ _ I Kq) _ E); auto.
  - apply text_err in E. destruct (proj2 (parse_kept _ _ _ _ I Kq) _ E); auto.
  - apply word_err in E. destruct (proj2 (parse_kept _ _ _ _ I Kq) _ E); auto.
Qed.

(** After Tree or Text has failed: which of the two errors it is. *)
Theorem word_after_exact p e0 q offs e : Parser.reach is_punct text p ->
  fst (tree is_punct p) = Ok (Err e0) \/ fst (text_of is_punct p) = Ok (Err e0) ->
  later is_punct (snd (tree is_punct p)) q \/ later is_punct (snd (text_of is_punct p)) q ->
  fst (word_at is_punct offs q) = Ok (Err e) ->
  exists err0 err, sem (ECall r_full_text) 0 None err0 /\ sem (ECall r_word) offs None err /\
    ((err - Z.of_nat offs <= err0 /\ e = e0) \/ (err0 < err - Z.of_nat offs /\ blank e)).
Proof.
  intros H E0 Lq E. assert (R := reach_rejected _ _ p e0 H E0). destruct (first_error _ _ p e0 (reach_linv _ _ p R H) E0) as (_ & F1 & F2).
  assert (F : failed is_punct text e0 q) by (destruct Lq as [Lq|Lq]; [exact (later_failed _ _ e0 _ q R F1 Lq)|exact (later_failed _ _ e0 _ q R F2 Lq)]).
  clear - E R F. apply word_err in E. destruct F as ([I Lf] & Hh & Rt & Es0). unfold root in Rt.
  destruct (le_lt_dec offs L) as [Hs|Hs]; [|rewrite (parse_beyond _ _ _ _ _ I Hs) in E; discriminate].
  destruct (parse_case _ _ r_word offs q I Hs) as (res & err & m1 & Se & Hm & Cm & _ & X & C). destruct res as [x|].
  { rewrite C in E. discriminate E. }
  destruct C as (o & f & fs & e' & h & Ef & Es & _ & _ & C). rewrite C in E. cbn [fst] in E. injection E as ->.
  assert (Far := sem_far _ _ _ _ _ _ toaq_wf _ _ _ Se Hs).
  destruct R as [err0 R]. destruct (enough_S text r_full_text) as [n En]. rewrite En in Ef. cbn [fail_of] in Ef.
  unfold failMemo in Ef. rewrite (ErrFacts.has_delta _ _ m1 err0 Cm R (X _ _ Hh)), Rt in Ef.
  exists err0, err. split; [exact R|]. split; [exact Se|].
  assert (Lm : 0 <= s_lastFail m1) by (destruct Hm as [-> | ->]; lia).
  rewrite (proj2 (Z.ltb_ge (s_lastFail m1) (Z.of_nat 0))) in Ef by (cbn; lia).
  destruct (Z.of_nat 0 + (err0 + 1 - 1) <? err - Z.of_nat offs) eqn:B.
  { right. apply Z.ltb_lt in B. split; [lia|]. cbn in Ef. injection Ef as _ <- _. eapply blank_error. exact Es. }
  left. apply Z.ltb_ge in B. split; [lia|]. cbn in Ef. injection Ef as _ <- _. rewrite Es0 in Es. injection Es as ->. reflexivity.
Qed.
End Api.

(* after Tree has succeeded, the error of Word(11) is the one of Word(3) before, about offset 4 *)
Lemma one_message_case :
  let p := snd (tree ascii_punct (new_parser "jai? ji/ da")) in
  (exists n, fst (tree ascii_punct (new_parser "jai? ji/ da")) = Ok (Got (Some n))) /\
  exists e, fst (word_at ascii_punct 3 p) = Ok (Err e) /\ pe_offset e = 4 /\
    pe_msg e = "want &boundary; got ' ji/ da'"%string /\
    fst (word_at ascii_punct 11 (snd (word_at ascii_punct 3 p))) = Ok (Err e).
Proof.
  cbv zeta. split; [eexists; vm_compute; reflexivity|].
  set (p := snd (tree ascii_punct (new_parser "jai? ji/ da"))).
  assert (X : match fst (word_at ascii_punct 3 p), fst (word_at ascii_punct 11 (snd (word_at ascii_punct 3 p))) with
    | Ok (Err e), Ok (Err e') => (pe_offset e =? 4) && (pe_offset e' =? 4) && String.eqb (pe_msg e) "want &boundary; got ' ji/ da'"
    | _, _ => false end = true) by (vm_compute; reflexivity).
  assert (R : Parser.reach ascii_punct "jai? ji/ da" p) by apply RTree, RNew.
  clearbody p. destruct (fst (word_at ascii_punct 3 p)) as [[a|e]| |] eqn:E; try discriminate X.
  destruct (fst (word_at ascii_punct 11 (snd (word_at ascii_punct 3 p)))) as [[a|e']| |] eqn:E'; try discriminate X.
  apply andb_prop in X. destruct X as [X M]. apply andb_prop in X. destruct X as [O O'].
  apply Z.eqb_eq in O, O'. apply String.eqb_eq in M. exists e. split; [reflexivity|]. split; [exact O|]. split; [exact M|].
  destruct (one_message ascii_punct "jai? ji/ da" p e (snd (word_at ascii_punct 3 p)) (snd (word_at ascii_punct 3 p)) e' (snd (word_at ascii_punct 11 (snd (word_at ascii_punct 3 p)))) R)
    as [[B _]|[[B _]|B]]; [right; right; eauto|constructor|right; right; eauto|lia|lia|congruence].
Qed.

(* "xx" is not accepted at all; Word gets three letters further *)
Lemma word_exact_case :
  let p := new_parser "xx jaix" in
  exists e0, fst (tree ascii_punct p) = Ok (Err e0) /\
    (exists e, fst (word_at ascii_punct 3 (snd (tree ascii_punct p))) = Ok (Err e) /\ e <> e0) /\
    fst (word_at ascii_punct 0 (snd (tree ascii_punct p))) = Ok (Err e0).
Proof.
  cbv zeta. eexists. split; [vm_compute; reflexivity|]. split; [|vm_compute; reflexivity].
  eexists. split; [vm_compute; reflexivity|]. intro H. apply (f_equal pe_msg) in H. vm_compute in H. discriminate H.
Qed.
