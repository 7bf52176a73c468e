(** Errors of a parser, and how they depend on what happened before. *)

From Coq Require Import String NArith ZArith List Bool Arith Lia FMapPositive.
From Verif Require Import Base Utf8 Loc PegSyntax Grammar Peg PegToaq PegSpec PegFacts NodeFacts PegToaqFacts Parser FailFacts ParserFacts
  ApiFacts Dedup DedupSpec DedupFacts.
Import ListNotations.
Open Scope list_scope.
Open Scope Z_scope.

(** ** Successes that have met a failure *)

Fixpoint must (G : positive -> rule) (n : nat) {struct n} : expr -> bool :=
  fix go (e : expr) : bool :=
    match e with
    | ELit _ | EClass _ | EAny | EPunct | EAnd _ | ENot _ => false
    | ECall r => match r_err (G r) with Some _ => true | None => match n with O => false | S n' => must G n' (r_body (G r)) end end
    | ESeq a b => go a || go b
    | EChoice a b => go a
    | EPlus _ => true
    | EOpt a | ESub a | ELabel _ a | EAction _ _ a => go a
    end.

Section Must.
Variable G : positive -> rule.
Variable is_punct : N -> bool.
Variable text : string.
Variable nullable : positive -> bool.
Variable rank : positive -> nat.
Variable maxrank : nat.
Hypothesis wf : forall r, wf_rule G nullable rank maxrank r = true.
Notation L := (String.length text).

Lemma must_seq n a b : must G n (ESeq a b) = (must G n a || must G n b)%bool. Proof. destruct n; reflexivity. Qed.
Lemma must_choice n a b : must G n (EChoice a b) = must G n a. Proof. destruct n; reflexivity. Qed.
Lemma must_opt n a : must G n (EOpt a) = must G n a. Proof. destruct n; reflexivity. Qed.
Lemma must_sub n a : must G n (ESub a) = must G n a. Proof. destruct n; reflexivity. Qed.
Lemma must_label n l a : must G n (ELabel l a) = must G n a. Proof. destruct n; reflexivity. Qed.
Lemma must_action n l x a : must G n (EAction l x a) = must G n a. Proof. destruct n; reflexivity. Qed.

Notation sem := (@PegSpec.sem G is_punct text).
Notation star := (@PegSpec.star G is_punct text).
Lemma must_all :
  (forall e pos res err, sem e pos res err -> (pos <= L)%nat -> forall n, must G n e = true -> 0 <= err) /\
  (forall e pos p k err, star e pos p k err -> (pos <= L)%nat -> 0 <= err).
Proof.
  apply sem_star_ind; intros; try lia; try (match goal with n0 : nat |- _ => destruct n0; discriminate end);
    repeat match goal with
    | H : PegSpec.sem ?e ?pos None ?err, P : (?pos <= L)%nat |- _ =>
        lazymatch goal with K : 0 <= err |- _ => fail | _ => assert (0 <= err) by exact (sem_none_err _ _ _ _ _ _ wf _ _ _ H P) end
    end; try lia.
  - destruct n as [|n]; cbn [must] in H1; destruct (r_err (G r)); try lia; try discriminate; eapply H; eassumption.
  - rewrite must_seq in H2. apply orb_true_iff in H2. destruct H2 as [H2|H2].
    + specialize (H H1 n H2). lia.
    + destruct (sem_some _ _ _ _ _ _ wf _ _ _ _ _ s H1) as [B _]. specialize (H0 ltac:(lia) n H2). lia.
  - destruct (sem_some _ _ _ _ _ _ wf _ _ _ _ _ s H1) as [B _]. pose proof (sem_none_err _ _ _ _ _ _ wf _ _ _ s0 ltac:(lia)). lia.
  - rewrite must_choice in H1. eapply H; eassumption.
  - destruct (sem_some _ _ _ _ _ _ wf _ _ _ _ _ s H1) as [B _]. specialize (H0 ltac:(lia)). lia.
  - rewrite must_opt in H1. eapply H; eassumption.
  - rewrite must_sub in H1. eapply H; eassumption.
  - rewrite must_label in H1. eapply H; eassumption.
  - rewrite must_action in H1. eapply H; eassumption.
  - destruct (sem_some _ _ _ _ _ _ wf _ _ _ _ _ s H1) as [B _]. specialize (H0 ltac:(lia)). lia.
Qed.
End Must.

Lemma word_must : must toaq 4 (ECall r_word) = true.
Proof. vm_compute. reflexivity. Qed.

Section Errors.
Variable is_punct : N -> bool.
Variable text : string.
Notation sem := (@PegSpec.sem toaq is_punct text).
Notation L := (String.length text).
Notation pinv := (ParserFacts.pinv is_punct text).
Notation cons := (PegFacts.cons toaq is_punct text).

(** lastFail is the error position of the last rule that was memoized. *)
Lemma accepts_last fuel r pos m dp de m1 res err : accepts toaq is_punct text fuel r pos m = Some (dp, de, m1) -> (pos <= L)%nat -> cons m ->
  sem (ECall r) pos res err -> m1 = m \/ s_lastFail m1 = err.
Proof.
  intros E P C Se. destruct (accepts_sound _ _ _ _ _ _ toaq_wf _ _ _ _ _ _ _ E P C) as (_ & res' & err' & Se' & _ & Ed).
  destruct (sem_det _ _ _ _ _ _ _ _ _ Se Se') as [_ <-].
  destruct fuel as [|fuel]; cbn [accepts] in E; [discriminate|]. destruct (memo m r pos) as [[dp0 de0]|]; [injection E as _ _ ->; left; reflexivity|].
  destruct (acc is_punct text (accepts toaq is_punct text fuel) (r_body (toaq r)) pos (-1) m) as [[[[p|] perr] st1]|]; [| |discriminate];
    unfold memoize in E; right.
  - destruct (0 <=? Z.of_nat p); injection E as _ E1 E2; rewrite <- E2; cbn [s_lastFail]; lia.
  - cbn [Z.leb Z.compare] in E. injection E as _ E1 E2. rewrite <- E2. cbn [s_lastFail]. lia.
Qed.

Lemma parse_case r start p : pinv p -> (start <= L)%nat -> exists res err m1,
  sem (ECall r) start res err /\ (m1 = q_m p \/ s_lastFail m1 = err) /\ cons m1 /\ has m1 r start /\ ext (q_m p) m1 /\
  match res with
  | Some _ => parse is_punct r start p = (Ok None, Parser text m1 (q_node p) (q_fail p) (q_act p))
  | None => exists o f fs e h, fail_of toaq is_punct text m1 (err - Z.of_nat start) (enough text 0 r_full_text) r_full_text 0%nat (q_fail p) = Some (o, f, fs) /\
      simple_error text f = Ok e /\ consistent h f /\ finv text h fs /\ parse is_punct r start p = (Ok (Some e), Parser text m1 (q_node p) fs (q_act p))
  end.
Proof.
  intros [Ht Hcons Hclos [h Hf] Hn Ha] Hs. unfold parse. rewrite Ht. rewrite (proj2 (Nat.ltb_ge _ _)) by lia.
  destruct (accepts toaq is_punct text (enough text start r) r start (q_m p)) as [[[dp de] m1]|] eqn:E.
  2: { exfalso. revert E. eapply accepts_total; [exact toaq_wf|apply le_n|exact Hs|exact Hcons]. }
  destruct (accepts_sound _ _ _ _ _ _ toaq_wf _ _ _ _ _ _ _ E Hs Hcons) as (Hcons1 & res & err & Hsem & Hdp & Hde).
  destruct (accepts_closed _ _ _ _ _ _ toaq_wf _ _ _ _ _ _ _ E Hs Hcons Hclos) as (Hclos1 & Hext & Hhas).
  exists res, err, m1. split; [exact Hsem|]. split; [eapply accepts_last; eassumption|]. split; [exact Hcons1|]. split; [exact Hhas|]. split; [exact Hext|]. destruct res as [[p' k]|].
  - assert (B : (start <= p')%nat) by (destruct (sem_some _ _ _ _ _ _ toaq_wf _ _ _ _ _ Hsem Hs) as [B _]; lia).
    cbn [enc] in Hdp. rewrite (proj2 (Z.leb_le 0 dp)) by lia. reflexivity.
  - cbn [enc] in Hdp. subst dp de. cbn [Z.leb Z.compare].
    destruct (fail_ok _ _ _ _ _ _ toaq_wf m1 Hcons1 (err - Z.of_nat start) (enough text 0 r_full_text) r_full_text 0%nat (q_fail p) h (le_n _) ltac:(lia) Hf)
      as (o & f & fs & h' & Ef & (Hx & Hfinv & _) & Hc & Hp & _).
    rewrite Ef. destruct (simple_error_ok _ _ _ Hc Hp) as (e & Es & He). rewrite Es. exists o, f, fs, e, h'. auto.
Qed.

Definition rejected : Prop := exists err, sem (ECall r_full_text) 0%nat None err.

(** Parsers on a rejected text, before and after the first error of Tree or Text. *)
Definition linv (p : parser) : Prop := pinv p /\ 0 <= s_lastFail (q_m p).
Definition root (p : parser) : option fnode := m2_get (s_fail (q_fail p)) r_full_text 0%nat.
Definition failed (e : perror) (p : parser) : Prop :=
  linv p /\ has (q_m p) r_full_text 0%nat /\ root p = Some (pe_tree e) /\ simple_error text (pe_tree e) = Ok e.
Definition used (r : positive) (start : nat) : Prop := r = r_full_text /\ start = 0%nat \/ r = r_word.

Lemma simple_tree f e : simple_error text f = Ok e -> pe_tree e = f.
Proof.
  unfold simple_error. destruct (leaf_fails f); [discriminate|]. destruct (location text (f_pos f0)); [|discriminate]. intros E. injection E as <-. reflexivity.
Qed.

Lemma err_pos r start res err : rejected -> used r start -> (start <= L)%nat -> sem (ECall r) start res err -> 0 <= err.
Proof.
  intros [err0 Rej] Hr Hs Se. destruct res as [[q k]|]; [|eapply sem_none_err; [exact toaq_wf|exact Se|exact Hs]]. destruct Hr as [[-> ->]| ->].
  - destruct (sem_det _ _ _ _ _ _ _ _ _ Se Rej) as [X _]. discriminate X.
  - eapply (proj1 (must_all _ _ _ _ _ _ toaq_wf)); [exact Se|exact Hs|exact word_must].
Qed.

Lemma parse_linv r start p : rejected -> used r start -> linv p -> linv (snd (parse is_punct r start p)).
Proof.
  intros Rej Hr [I Lf]. destruct (le_lt_dec start L) as [Hs|Hs]; [|rewrite (parse_beyond _ _ _ _ _ I Hs); split; assumption].
  destruct (parse_ok _ _ r start p I Hs) as (res0 & err0 & p1 & _ & Ep & _ & I1 & _). rewrite Ep. cbn [snd]. split; [exact I1|].
  destruct (parse_case r start p I Hs) as (res & err & m1 & Se & Hm & _ & _ & _ & C). assert (Pe := err_pos _ _ _ _ Rej Hr Hs Se).
  assert (Q : q_m p1 = m1).
  { destruct res as [x|].
    - rewrite C in Ep. injection Ep as _ <-. reflexivity.
    - destruct C as (o & f & fs & e & h & _ & _ & _ & _ & C). rewrite C in Ep. injection Ep as _ <-. reflexivity. }
  rewrite Q. destruct Hm as [-> | ->]; assumption.
Qed.

(** The memo of the whole text's failure. *)
Lemma has_delta m err : cons m -> sem (ECall r_full_text) 0%nat None err -> has m r_full_text 0%nat -> delta m r_full_text 0%nat = (-1, err + 1).
Proof.
  intros C Se Hh. unfold has in Hh. unfold delta. destruct (m2_get (s_delta m) r_full_text 0%nat) as [[dp de]|] eqn:E; [|congruence].
  destruct (C _ _ _ _ E) as (_ & res & err' & Se' & -> & ->). destruct (sem_det _ _ _ _ _ _ _ _ _ Se Se') as [<- <-]. cbn. f_equal. lia.
Qed.

Lemma fail_root m err ep st f fuel : cons m -> sem (ECall r_full_text) 0%nat None err -> has m r_full_text 0%nat -> 0 <= s_lastFail m ->
  m2_get (s_fail st) r_full_text 0%nat = Some f ->
  exists g st', fail_of toaq is_punct text m ep (S fuel) r_full_text 0%nat st = Some (None, g, st') /\ s_fail st' = s_fail st /\ (ep <= err -> g = f).
Proof.
  intros C Se Hh Lf Ef. cbn [fail_of]. unfold failMemo. rewrite (has_delta m err C Se Hh), Ef. cbn [fst snd].
  rewrite (proj2 (Z.ltb_ge _ _)) by (cbn; lia). destruct (Z.of_nat 0 + (err + 1 - 1) <? ep) eqn:E.
  - eexists _, _. split; [reflexivity|]. split; [reflexivity|]. apply Z.ltb_lt in E. lia.
  - eexists _, _. split; [reflexivity|]. split; [reflexivity|]. reflexivity.
Qed.
Lemma fail_new m err st fuel o f st' : cons m -> sem (ECall r_full_text) 0%nat None err -> has m r_full_text 0%nat -> 0 <= s_lastFail m ->
  fail_of toaq is_punct text m err fuel r_full_text 0%nat st = Some (o, f, st') -> m2_get (s_fail st') r_full_text 0%nat = Some f.
Proof.
  intros C Se Hh Lf E. destruct (m2_get (s_fail st) r_full_text 0%nat) as [f0|] eqn:Ef.
  - destruct fuel as [|fuel]; [discriminate|]. destruct (fail_root m err err st f0 fuel C Se Hh Lf Ef) as (g & st1 & E1 & F1 & G1).
    rewrite E in E1. injection E1 as _ -> ->. rewrite F1, Ef. rewrite G1 by lia. reflexivity.
  - destruct fuel as [|fuel]; [discriminate|]. cbn [fail_of] in E. unfold failMemo in E. rewrite (has_delta m err C Se Hh), Ef in E. cbn [fst snd] in E.
    rewrite (proj2 (Z.ltb_ge _ _)) in E by (cbn; lia). rewrite (proj2 (Z.ltb_ge _ _)) in E by (cbn; lia).
    destruct (fai _ _ _ _ _ _ _ _) as [[[p ks] st1]|]; [|discriminate]. injection E as _ <- <-. cbn [s_fail]. apply m2_gss.
Qed.

Lemma enough_S r : exists n, enough text 0 r = S n.
Proof. unfold enough, depth. eexists. rewrite Nat.add_succ_r || rewrite <- Nat.add_1_r. reflexivity. Qed.

Lemma parse_first p e : linv p -> fst (parse is_punct r_full_text 0 p) = Ok (Some e) -> rejected /\ failed e (snd (parse is_punct r_full_text 0 p)).
Proof.
  intros [I Lf] E. destruct (parse_case r_full_text 0 p I ltac:(lia)) as (res & err & m1 & Se & Hm & Cm & Hh & _ & C). destruct res as [x|].
  { rewrite C in E. discriminate E. }
  assert (Rej : rejected) by (exists err; exact Se). split; [exact Rej|].
  destruct C as (o & f & fs & e' & h & Ef & Es & _ & _ & C). assert (LI := parse_linv r_full_text 0 p Rej (or_introl (conj eq_refl eq_refl)) (conj I Lf)).
  rewrite C in *. cbn [fst snd] in *. injection E as ->. split; [exact LI|]. split; [exact Hh|]. rewrite (simple_tree _ _ Es). split; [|exact Es].
  unfold root. cbn [q_fail]. rewrite Z.sub_0_r in Ef. eapply fail_new; [exact Cm|exact Se|exact Hh| |exact Ef]. apply LI.
Qed.
Lemma parse_failed e p r start : rejected -> used r start -> failed e p -> failed e (snd (parse is_punct r start p)) /\
  (r = r_full_text -> start = 0%nat -> fst (parse is_punct r start p) = Ok (Some e)).
Proof.
  intros Rej U (LI & Hh & Rt & Es). assert (LI2 := parse_linv r start p Rej U LI). destruct LI as [I Lf].
  destruct (le_lt_dec start L) as [Hs|Hs].
  2: { rewrite (parse_beyond _ _ _ _ _ I Hs) in *. cbn [fst snd] in *. split; [|intros _ ->; lia]. split; [exact LI2|auto]. }
  destruct (parse_case r start p I Hs) as (res & err & m1 & Se & Hm & Cm & _ & X & C). assert (Rej' := Rej). destruct Rej' as [err0 Se0]. destruct res as [x|].
  - rewrite C in *. cbn [fst snd] in *. split; [split; [exact LI2|]; split; [apply X, Hh|]; split; [exact Rt|exact Es]|]. intros -> ->.
    destruct (sem_det _ _ _ _ _ _ _ _ _ Se Se0) as [Y _]. discriminate Y.
  - destruct C as (o & f & fs & e' & h & Ef & Es' & _ & _ & C). rewrite C in *. cbn [fst snd] in *.
    destruct (enough_S r_full_text) as [n En]. rewrite En in Ef.
    destruct (fail_root m1 err0 (err - Z.of_nat start) (q_fail p) (pe_tree e) n Cm Se0 (X _ _ Hh) (proj2 LI2) Rt) as (g & st' & E1 & F1 & G1).
    rewrite Ef in E1. injection E1 as -> -> ->. split.
    + split; [exact LI2|]. split; [apply X, Hh|]. split; [|exact Es]. unfold root. cbn [q_fail]. rewrite F1. exact Rt.
    + intros -> ->. destruct (sem_det _ _ _ _ _ _ _ _ _ Se Se0) as [_ Y]. rewrite G1 in Es' by (cbn; lia). congruence.
Qed.
End Errors.
