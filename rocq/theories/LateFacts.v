(** Text panics exactly on the accepted texts with a digit after two letters. *)

From Coq Require Import String Ascii NArith ZArith PArith List FMapPositive Lia Bool.
From Verif Require Import Base Utf8 Utf8Facts PegSyntax Grammar Peg PegToaq PegSpec PegFacts PegToaqFacts NodeFacts TreeSpec
  Tone SpellFacts Ast Action ActionSpec ActionFacts Parser ParserSpec ParserFacts ApiFacts ActionTypes ActionTypeFacts SortApi LateDigit.
Import ListNotations.
Open Scope nat_scope.
Open Scope list_scope.

(** ** Runs of runes in a text *)

Section Spans.
Variable text : string.

Inductive spans : nat -> nat -> list N -> Prop :=
  | SpNil i : spans i i []
  | SpCons i r w j l : decode_rune (sdrop i text) = (r, w) -> r <> rune_error -> spans (i + w) j l -> spans i j (r :: l).

Lemma spans_app i j k l m : spans i j l -> spans j k m -> spans i k (l ++ m).
Proof. intros A B. induction A; [exact B|]. cbn. econstructor; eauto. Qed.

Lemma spans_one i r w : decode_rune (sdrop i text) = (r, w) -> r <> rune_error -> spans i (i + w) [r].
Proof. intros A B. econstructor; [exact A|exact B|constructor]. Qed.

(** A run ends before a place where nothing can be decoded. *)
Lemma spans_prefix i j l : spans i j l -> forall k m, spans i k m -> fst (decode_rune (sdrop k text)) = rune_error ->
  exists m', m = l ++ m'.
Proof.
  induction 1 as [i|i r w j l D NE A IH]; intros k m B K.
  - exists m. reflexivity.
  - inversion B; subst.
    + rewrite D in K. cbn in K. congruence.
    + match goal with D' : decode_rune (sdrop i text) = _ |- _ => rewrite D in D'; injection D' as <- <- end.
      match goal with B' : spans (i + w) k ?x |- _ => destruct (IH _ _ B' K) as (m' & ->) end. exists m'. reflexivity.
Qed.

Lemma spans_le i j l : spans i j l -> (i <= j)%nat.
Proof. induction 1; lia. Qed.

Lemma spans_text i j l : spans i j l ->
  stake (j - i) (sdrop i text) = of_runes l /\ Forall (fun r => valid_rune r = true) l.
Proof.
  induction 1 as [i|i r w j l D NE A [IH V]].
  - rewrite Nat.sub_diag. split; [destruct (sdrop i text); reflexivity|constructor].
  - pose proof (spans_le _ _ _ A) as L.
    assert (Vr := decode_valid (sdrop i text)). rewrite D in Vr. cbn [fst] in Vr.
    split; [|constructor; assumption].
    assert (NEs : sdrop i text <> ""%string) by (intro Z; rewrite Z in D; cbn in D; congruence).
    assert (I := decode_inv (sdrop i text) NEs). rewrite D in I. cbn [fst snd] in I. specialize (I NE).
    assert (W := decode_encode_app r (sdrop w (sdrop i text)) Vr). rewrite <- I, D in W. injection W as W.
    replace (j - i) with (w + (j - (i + w))) by lia. rewrite PegText.stake_add. cbn [of_runes].
    f_equal.
    + rewrite I. rewrite W. rewrite Utf8Facts.stake_app. reflexivity.
    + rewrite sdrop_sdrop. exact IH.
Qed.

End Spans.

(** ** What the runes of a match look like *)

(** [kn]: no digit; [kd]: no digit but perhaps the second; [ki]: not empty, no digit and no
    letter; [kc]: no digit after two letters, and neither letter nor digit first; [ke]: empty; [ks]: one rune. *)
Record look := Look { kn : bool; kd : bool; ki : bool; kc : bool; ke : bool; ks : bool }.

Definition no_digit (l : list N) : Prop := forall r, In r l -> tone_digit r = false.
Definition second_digit (l : list N) : Prop :=
  match l with [] => True | [a] => tone_digit a = false | a :: _ :: m => tone_digit a = false /\ no_digit m end.
Definition no_letter (l : list N) : Prop := l <> [] /\ forall r, In r l -> tone_digit r = false /\ plain_letter r = false.
Definition closed_run (l : list N) : Prop :=
  ~ crammed l /\ match l with [] => True | r :: _ => tone_digit r = false /\ plain_letter r = false end.

Definition looks (k : look) (l : list N) : Prop :=
  (kn k = true -> no_digit l) /\ (kd k = true -> second_digit l) /\ (ki k = true -> no_letter l) /\
  (kc k = true -> closed_run l) /\ (ke k = true -> l = []) /\ (ks k = true -> length l = 1).

Definition look_bot : look := Look true true true true true true.
Definition look_top : look := Look false false false false false false.
Definition look_empty : look := Look true true false true true false.
Definition look_join (a b : look) : look :=
  Look (kn a && kn b) (kd a && kd b) (ki a && ki b) (kc a && kc b) (ke a && ke b) (ks a && ks b).
Definition look_le (a b : look) : bool :=
  implb (kn b) (kn a) && implb (kd b) (kd a) && implb (ki b) (ki a) && implb (kc b) (kc a) && implb (ke b) (ke a) && implb (ks b) (ks a).
Definition look_seq (a b : look) : look :=
  Look (kn a && kn b)
       ((kd a && kn b) || (ke a && kd b) || (kn a && ks a && ks b))
       ((ki a && (ki b || ke b)) || (ke a && ki b))
       ((kc a && kc b) || (ki a && kd b))
       (ke a && ke b)
       ((ks a && ke b) || (ke a && ks b)).
Definition look_plus (a : look) : look := Look (kn a) (kn a) (ki a) (kc a) (ke a) false.
Definition look_opt (a : look) : look := Look (kn a) (kd a) false (kc a) (ke a) false.
(* the look of one rune out of a list *)
Definition look_rune (rs : list N) : look :=
  let n := forallb (fun r => negb (tone_digit r)) rs in
  let i := forallb (fun r => negb (tone_digit r) && negb (plain_letter r)) rs in
  Look n n i i false true.

Lemma no_digit_app l m : no_digit l -> no_digit m -> no_digit (l ++ m).
Proof. intros A B r H. apply in_app_or in H. destruct H; auto. Qed.

Lemma no_digit_second l : no_digit l -> second_digit l.
Proof.
  intro A. destruct l as [|a [|b l]]; cbn; [exact I|apply A; left; reflexivity|].
  split; [apply A; left; reflexivity|]. intros r H. apply A. right. right. exact H.
Qed.

Lemma second_app l m : second_digit l -> no_digit m -> second_digit (l ++ m).
Proof.
  intros A B. destruct l as [|a [|b l]]; cbn in *.
  - apply no_digit_second, B.
  - destruct m as [|b m]; cbn; [exact A|]. split; [exact A|]. intros r H. apply B. right. exact H.
  - destruct A as [A C]. split; [exact A|]. apply no_digit_app; assumption.
Qed.

Lemma no_letter_app l m : no_letter l -> (no_letter m \/ m = []) -> no_letter (l ++ m).
Proof.
  intros [A A'] B. split.
  - destruct l; [congruence|discriminate].
  - intros r H. apply in_app_or in H. destruct H as [H|H]; [auto|]. destruct B as [[_ B]| ->]; [auto|contradiction].
Qed.

(* a digit after two letters lies in the second part, in the first part, or across the border *)
Lemma crammed_app l m : crammed (l ++ m) -> crammed l \/ crammed m \/
  (exists l' a b d m', l = l' ++ [a] /\ m = b :: d :: m' /\ plain_letter a = true /\ plain_letter b = true /\ tone_digit d = true) \/
  (exists l' a b d m', l = l' ++ [a; b] /\ m = d :: m' /\ plain_letter a = true /\ plain_letter b = true /\ tone_digit d = true).
Proof.
  intros (u & a & b & d & v & E & A & B & D). revert l E. induction u as [|x u IH]; intros l E.
  - destruct l as [|x l]; cbn in E.
    { right. left. exists [], a, b, d, v. auto. }
    injection E as -> E. destruct l as [|y l]; cbn in E.
    { right. right. left. exists [], a, b, d, v. auto. }
    injection E as -> E. destruct l as [|z l]; cbn in E.
    { right. right. right. exists [], a, b, d, v. auto. }
    injection E as -> E. left. exists [], a, b, d, l. auto.
  - destruct l as [|y l]; cbn in E.
    { right. left. exists (x :: u), a, b, d, v. auto. }
    injection E as -> E. destruct (IH l E) as [H|[H|[H|H]]].
    + left. destruct H as (u' & a' & b' & d' & v' & -> & H). exists (x :: u'), a', b', d', v'. auto.
    + auto.
    + right. right. left. destruct H as (l' & a' & b' & d' & m' & -> & -> & H). exists (x :: l'), a', b', d', m'. auto.
    + right. right. right. destruct H as (l' & a' & b' & d' & m' & -> & -> & H). exists (x :: l'), a', b', d', m'. auto.
Qed.

Lemma crammed_digit l : crammed l -> no_digit l -> False.
Proof.
  intros (u & a & b & d & v & -> & _ & _ & D) N. specialize (N d). rewrite N in D; [discriminate|].
  apply in_or_app. right. right. right. left. reflexivity.
Qed.

Lemma crammed_second l : crammed l -> second_digit l -> False.
Proof.
  intros (u & a & b & d & v & -> & _ & _ & D) N. destruct u as [|x [|y u]]; cbn in N.
  - destruct N as [_ N]. rewrite (N d) in D; [discriminate|]. left. reflexivity.
  - destruct N as [_ N]. rewrite (N d) in D; [discriminate|]. right. left. reflexivity.
  - destruct N as [_ N]. rewrite (N d) in D; [discriminate|]. apply in_or_app. right. right. right. left. reflexivity.
Qed.

Lemma closed_app l m : closed_run l -> closed_run m -> closed_run (l ++ m).
Proof.
  intros [A A'] [B B']. split.
  - intro C. apply crammed_app in C. destruct C as [C|[C|[C|C]]]; [auto|auto| |].
    + destruct C as (l' & a & b & d & m' & -> & -> & Pa & Pb & D). destruct B' as [_ B']. congruence.
    + destruct C as (l' & a & b & d & m' & -> & -> & Pa & Pb & D). destruct B' as [B' _]. congruence.
  - destruct l; [exact B'|exact A'].
Qed.

Lemma closed_ahead l m : no_letter l -> second_digit m -> closed_run (l ++ m).
Proof.
  intros [A A'] B. split.
  - intro C. apply crammed_app in C. destruct C as [C|[C|[C|C]]].
    + apply (crammed_digit _ C). intros r H. apply (A' r H).
    + exact (crammed_second _ C B).
    + destruct C as (l' & a & b & d & m' & -> & -> & Pa & Pb & D).
      destruct (A' a) as [_ X]; [apply in_or_app; right; left; reflexivity|]. congruence.
    + destruct C as (l' & a & b & d & m' & -> & -> & Pa & Pb & D).
      destruct (A' a) as [_ X]; [apply in_or_app; right; left; reflexivity|]. congruence.
  - destruct l as [|r l]; [congruence|]. cbn. apply A'. left. reflexivity.
Qed.

Lemma closed_nil : closed_run [].
Proof. split; [|exact I]. intros (u & a & b & d & v & E & _). destruct u; discriminate. Qed.

Lemma looks_le a b l : look_le a b = true -> looks a l -> looks b l.
Proof.
  unfold look_le, looks. intros H (A & B & C & D & E & F). destruct a, b; cbn in *.
  repeat match goal with H : (_ && _)%bool = true |- _ => apply andb_prop in H; destruct H end.
  split; [|split; [|split; [|split; [|split]]]]; intro X; subst; cbn in *; auto.
Qed.

Lemma looks_join a b l : looks a l \/ looks b l -> looks (look_join a b) l.
Proof.
  unfold looks. intros [(A & B & C & D & E & F)|(A & B & C & D & E & F)]; cbn;
    (split; [|split; [|split; [|split; [|split]]]]); intro H; apply andb_prop in H; destruct H; auto.
Qed.

Lemma looks_seq a b l m : looks a l -> looks b m -> looks (look_seq a b) (l ++ m).
Proof.
  unfold looks. intros (A & B & C & D & E & F) (A' & B' & C' & D' & E' & F'). cbn. split; [|split; [|split; [|split; [|split]]]]; intro H.
  - apply andb_prop in H. destruct H. apply no_digit_app; auto.
  - apply orb_prop in H. destruct H as [H|H]; [apply orb_prop in H; destruct H as [H|H]|]; apply andb_prop in H; destruct H as [H1 H2].
    + apply second_app; auto.
    + rewrite (E H1). cbn. auto.
    + apply andb_prop in H1. destruct H1 as [H1 H3]. specialize (A H1). specialize (F H3). specialize (F' H2).
      destruct l as [|x [|y l]]; cbn in F; [lia| |lia].
      destruct m as [|y [|z m]]; cbn in F' |- *; [lia| |lia]. split; [|intros r []]. apply A. left. reflexivity.
  - apply orb_prop in H. destruct H as [H|H]; apply andb_prop in H; destruct H as [H1 H2].
    + apply no_letter_app; [auto|]. apply orb_prop in H2. destruct H2; auto.
    + rewrite (E H1). cbn. auto.
  - apply orb_prop in H. destruct H as [H|H]; apply andb_prop in H; destruct H as [H1 H2].
    + apply closed_app; auto.
    + apply closed_ahead; auto.
  - apply andb_prop in H. destruct H. rewrite E, E' by assumption. reflexivity.
  - rewrite app_length. apply orb_prop in H. destruct H as [H|H]; apply andb_prop in H; destruct H as [H1 H2].
    + rewrite (E' H2). specialize (F H1). cbn. lia.
    + rewrite (E H1). specialize (F' H2). cbn. lia.
Qed.

Lemma looks_empty : looks look_empty [].
Proof.
  unfold looks; cbn. split; [|split; [|split; [|split; [|split]]]]; intros; try discriminate; auto.
  - intros r [].
  - apply closed_nil.
Qed.

Lemma looks_opt a l : looks a l \/ l = [] -> looks (look_opt a) l.
Proof.
  intros [(A & B & C & D & E & F)| ->]; unfold looks; cbn; (split; [|split; [|split; [|split; [|split]]]]); auto; try discriminate.
  - intros _ r [].
  - intros _. exact closed_nil.
Qed.

Lemma looks_top l : looks look_top l.
Proof. unfold looks; cbn. split; [|split; [|split; [|split; [|split]]]]; discriminate. Qed.

Lemma looks_rune rs r : In r rs -> looks (look_rune rs) [r].
Proof.
  intro I. assert (A : forallb (fun r => negb (tone_digit r)) rs = true -> tone_digit r = false).
  { intro H. rewrite forallb_forall in H. specialize (H r I). apply negb_true_iff in H. exact H. }
  assert (B : forallb (fun r => negb (tone_digit r) && negb (plain_letter r)) rs = true -> tone_digit r = false /\ plain_letter r = false).
  { intro H. rewrite forallb_forall in H. specialize (H r I). apply andb_prop in H. destruct H as [X Y]. apply negb_true_iff in X, Y. auto. }
  unfold looks. cbn. split; [|split; [|split; [|split; [|split]]]].
  - intros H x [<-|[]]. auto.
  - auto.
  - intro H. split; [discriminate|]. intros x [<-|[]]. auto.
  - intro H. split; [|auto]. intros (u & a & b & d & v & E & _). destruct u as [|? [|]]; discriminate.
  - discriminate.
  - reflexivity.
Qed.

Lemma looks_plus1 a l : looks a l -> looks (look_plus a) l.
Proof. intros (A & B & C & D & E & F). unfold looks; cbn. split; [|split; [|split; [|split; [|split]]]]; auto; [intro H; apply no_digit_second; auto|discriminate]. Qed.

Lemma looks_plus a l m : looks (look_plus a) l -> looks a m -> looks (look_plus a) (l ++ m).
Proof.
  intros (A & B & C & D & E & F) (A' & B' & C' & D' & E' & F'). unfold looks; cbn in *. split; [|split; [|split; [|split; [|split]]]].
  - intro H. apply no_digit_app; auto.
  - intro H. apply no_digit_second, no_digit_app; auto.
  - intro H. apply no_letter_app; auto.
  - intro H. apply closed_app; auto.
  - intro H. rewrite E, E' by assumption. reflexivity.
  - discriminate.
Qed.

(** ** The looks of the rules *)

Section Lk.
Variable lt : positive -> look.

Fixpoint lk (e : expr) : look :=
  match e with
  | ELit s => look_rune [fst (decode_rune s)]
  | EClass rs => look_rune rs
  | EAny => look_top
  | EPunct => Look true true true true false true
  | ECall r => lt r
  | ESeq a b => look_seq (lk a) (lk b)
  | EChoice a b => look_join (lk a) (lk b)
  | EPlus a => look_plus (lk a)
  | EOpt a => look_opt (lk a)
  | EAnd _ | ENot _ => look_empty
  | ESub a => lk a
  | ELabel _ a => lk a
  | EAction AAddTone [0; 1] (ESeq (ELabel 0 a) (ELabel 1 (ECall t))) =>
      match r_body (toaq t) with
      | EClass _ => if kn (lk a) then Look true true false false false false else look_top
      | _ => look_top
      end
  | EAction AAddTone _ _ => look_top
  | EAction _ _ a => lk a
  end.

(* every terminal matches runes, no errors *)
Fixpoint terms_ok (e : expr) : bool :=
  match e with
  | ELit s => one_rune s && negb (N.eqb (fst (decode_rune s)) rune_error)
  | EClass rs => forallb (fun r => negb (N.eqb r rune_error)) rs
  | EAny | EPunct | ECall _ => true
  | ESeq a b | EChoice a b => terms_ok a && terms_ok b
  | EPlus a | EOpt a | EAnd a | ENot a | ESub a | ELabel _ a | EAction _ _ a => terms_ok a
  end.
End Lk.

Definition ltab : Type := PositiveMap.t look.
Definition ltab_get (m : ltab) (r : positive) : look :=
  match PositiveMap.find r m with Some k => k | None => look_bot end.
Definition ltab_step (m : ltab) : ltab :=
  PositiveMap.mapi (fun r ru => lk (ltab_get m) (r_body ru)) rule_map.
Definition toaq_ltab : ltab := Eval vm_compute in Nat.iter 30 ltab_step (PositiveMap.empty _).
Definition toaq_lk (r : positive) : look :=
  match PositiveMap.find r rule_map with Some _ => ltab_get toaq_ltab r | None => look_top end.

Lemma ltab_check : forallb (fun p => look_le (lk toaq_lk (r_body (snd p))) (toaq_lk (fst p)) && terms_ok (r_body (snd p)))
  (PositiveMap.elements rule_map) = true.
Proof. vm_compute. reflexivity. Qed.

Lemma full_look : kc (toaq_lk r_full_text) = true.
Proof. vm_compute. reflexivity. Qed.

(** ** Rules that match letters, and rules that cannot fail on given runes *)

Section Fuel.
Variable call : positive -> option (list N).

(* the possible first runes, if every match consists of letters *)
Fixpoint lead (e : expr) : option (list N) :=
  match e with
  | EClass rs => if forallb plain_letter rs then Some rs else None
  | ECall r => call r
  | ESeq a b => match lead a, lead b with Some x, Some _ => Some x | _, _ => None end
  | EChoice a b => match lead a, lead b with Some x, Some y => Some (x ++ y) | _, _ => None end
  | ELabel _ a | ESub a => lead a
  | EAction ADotless [0] (ELabel 0 (EClass rs)) => if forallb plain_letter rs then Some rs else None
  | _ => None
  end.
End Fuel.

Fixpoint lead_r (n : nat) (r : positive) : option (list N) :=
  match n with O => None | S n' => lead (lead_r n') (r_body (toaq r)) end.

Definition starts (rs : list N) (pre : list N) : option (list N) :=
  match pre with r :: pre' => if existsb (N.eqb r) rs then Some pre' else None | [] => None end.

Section Fuel2.
Variable calle : positive -> list N -> option (list N).
Variable callm : positive -> list N -> bool.

(* matches the first of the runes *)
Fixpoint eat (e : expr) (pre : list N) : option (list N) :=
  match e with
  | EClass rs => starts rs pre
  | ECall r => calle r pre
  | ELabel _ a | EAction _ _ a => eat a pre
  | _ => None
  end.

(* matches at these runes *)
Fixpoint must (e : expr) (pre : list N) : bool :=
  match e with
  | EClass rs => match starts rs pre with Some _ => true | None => false end
  | ECall r => callm r pre
  | ESeq a b => match eat a pre with Some pre' => must b pre' | None => false end
  | EChoice a b => must a pre || must b pre
  | ELabel _ a | ESub a | EAction _ _ a => must a pre
  | _ => false
  end.
End Fuel2.

Fixpoint eat_r (n : nat) (r : positive) (pre : list N) : option (list N) :=
  match n with O => None | S n' => eat (eat_r n') (r_body (toaq r)) pre end.
Fixpoint must_r (n : nat) (r : positive) (pre : list N) : bool :=
  match n with O => false | S n' => must (eat_r n') (must_r n') (r_body (toaq r)) pre end.

(* the choice of a syllable between a desinence with its tone in it and one with a sign behind it *)
Definition tone_choice (a b : expr) : bool :=
  match a, b with
  | ECall x, EAction AAddTone [0; 1] (ESeq (ELabel 0 (ECall d)) (ELabel 1 (ECall t))) =>
      match r_body (toaq t), lead_r 10 d, rt_of types_any d with
      | EClass rs, Some hs, (TSet ds | THead ds) =>
          can_add ds (map encode_rune (filter (fun r => negb (tone_digit r)) rs)) &&
          forallb (fun h => forallb (fun g => must_r 10 x [h; g]) (filter tone_digit rs)) hs
      | _, _, _ => false
      end
  | _, _ => false
  end.

Fixpoint tone_acts (e : expr) : bool :=
  match e with
  | ELit _ | EClass _ | EAny | EPunct | ECall _ => true
  | ESeq a b => tone_acts a && tone_acts b
  | EChoice a b => tone_acts a && (tone_acts b || tone_choice a b)
  | EPlus a | EOpt a | EAnd a | ENot a | ESub a | ELabel _ a => tone_acts a
  | EAction AAddTone _ _ => false
  | EAction _ _ a => tone_acts a && match infer false (rt_of types_any) e with Some _ => true | None => false end
  end.

Lemma tone_acts_check : forallb (fun p => tone_acts (r_body (snd p))) (PositiveMap.elements rule_map) = true.
Proof. vm_compute. reflexivity. Qed.

Lemma rule_acts r : tone_acts (r_body (toaq r)) = true.
Proof.
  unfold toaq. destruct (PositiveMap.find r rule_map) as [ru|] eqn:E; [|reflexivity].
  assert (H := tone_acts_check). rewrite forallb_forall in H. exact (H (r, ru) (PositiveMap.elements_correct _ _ E)).
Qed.

Section Sound.
Variable is_punct : N -> bool.
Variable text : string.
Hypothesis Hp : punct_plain is_punct.

Notation sem := (@sem toaq is_punct text).
Notation star := (@star toaq is_punct text).
Notation vsem := (vsem toaq is_punct text).
Notation vstar := (vstar toaq is_punct text).
Notation spans := (spans text).
Notation lke := (lk toaq_lk).

Lemma rule_look r l : terms_ok (r_body (toaq r)) = true /\ (looks (lke (r_body (toaq r))) l -> looks (toaq_lk r) l).
Proof.
  unfold toaq. destruct (PositiveMap.find r rule_map) as [ru|] eqn:E.
  - assert (H := ltab_check). rewrite forallb_forall in H.
    specialize (H (r, ru) (PositiveMap.elements_correct _ _ E)). cbn [fst snd] in H.
    apply andb_prop in H. destruct H as [H1 H2]. split; [exact H2|]. apply looks_le. exact H1.
  - split; [reflexivity|]. intros _. unfold toaq_lk. rewrite E. apply looks_top.
Qed.

Lemma class_span rs pos p k err : sem (EClass rs) pos (Some (p, k)) err -> terms_ok (EClass rs) = true ->
  exists r, In r rs /\ spans pos p [r] /\ slice text pos p = encode_rune r /\ valid_rune r = true.
Proof.
  intros H T. inversion H; subst.
  match goal with D : decode_rune _ = (?x, ?y), I : In ?x rs |- _ => rename x into r; rename y into w; rename D into D0; rename I into Hr end.
  cbn in T. rewrite forallb_forall in T. specialize (T r Hr). apply negb_true_iff, N.eqb_neq in T.
  exists r. split; [exact Hr|]. pose proof (spans_one _ _ _ _ D0 T) as Sp. split; [exact Sp|].
  destruct (spans_text _ _ _ _ Sp) as [E V]. unfold slice. rewrite E. cbn. rewrite sapp_nil_r.
  split; [reflexivity|]. inversion V; assumption.
Qed.

Lemma term_span e pos p k err : terminal e = true -> terms_ok e = true -> sem e pos (Some (p, k)) err ->
  exists l, spans pos p l /\ looks (lke e) l.
Proof.
  intros T Ok H. destruct e; try discriminate T.
  - inversion H; subst. cbn in Ok. apply andb_prop in Ok. destruct Ok as [O N]. apply negb_true_iff, N.eqb_neq in N.
    exists [fst (decode_rune s)]. split.
    + apply spans_one; [|exact N]. match goal with D : sdrop pos text = _ |- _ => rewrite D end. apply one_rune_decode. exact O.
    + apply looks_rune. left. reflexivity.
  - destruct (class_span _ _ _ _ _ H Ok) as (r & I & S & _). exists [r]. split; [exact S|]. apply looks_rune. exact I.
  - inversion H; subst. eexists. split; [eapply spans_one; eassumption|]. apply looks_top.
  - inversion H; subst. eexists. split; [eapply spans_one; eassumption|].
    match goal with P : is_punct ?r = true |- _ => destruct (Hp r P) as [A B]; pose proof (looks_rune [r] r (or_introl eq_refl)) as L end.
    unfold look_rune in L. cbn [forallb] in L. rewrite A, B in L. exact L.
Qed.

Lemma sem_spans :
  (forall e pos o err, sem e pos o err -> terms_ok e = true -> forall p k, o = Some (p, k) -> exists l, spans pos p l) /\
  (forall e pos p k err, star e pos p k err -> terms_ok e = true -> exists l, spans pos p l).
Proof.
  apply sem_star_ind; intros; cbn [terms_ok] in *;
    repeat match goal with
    | H : Some _ = Some _ |- _ => injection H as <- <-
    | H : None = Some _ |- _ => discriminate H
    | H : (_ && _)%bool = true |- _ => apply andb_prop in H; destruct H
    end.
  all: try (exists []; constructor; fail).
  all: try (subst; eauto; fail).
  - match goal with N : negb _ = true, O : one_rune _ = true |- _ => apply negb_true_iff, N.eqb_neq in N; eexists; eapply spans_one; [|exact N];
      rewrite e; exact (one_rune_decode _ _ O) end.
  - rewrite forallb_forall in H. specialize (H r i). apply negb_true_iff, N.eqb_neq in H. eexists. eapply spans_one; eassumption.
  - eexists. eapply spans_one; eassumption.
  - eexists. eapply spans_one; eassumption.
  - exact (H (proj1 (rule_look r [])) _ _ eq_refl).
  - destruct (H ltac:(assumption) _ _ eq_refl) as (l & A). destruct (H0 ltac:(assumption) _ _ eq_refl) as (m & B).
    exists (l ++ m). eapply spans_app; eassumption.
  - destruct (H ltac:(assumption) _ _ eq_refl) as (l & A). destruct (H0 ltac:(assumption)) as (m & B).
    exists (l ++ m). eapply spans_app; eassumption.
  - destruct (H ltac:(assumption) _ _ eq_refl) as (l & A). destruct (H0 ltac:(assumption)) as (m & B).
    exists (l ++ m). eapply spans_app; eassumption.
Qed.

Lemma digit_out t : tone_digit t = true -> lookup t diacritic = None.
Proof.
  unfold tone_digit. intro H. apply andb_prop in H. destruct H as [A B]. apply N.leb_le in A, B.
  assert (t = 49 \/ t = 50 \/ t = 51 \/ t = 52 \/ t = 53 \/ t = 54 \/ t = 55)%N as C by lia.
  repeat (destruct C as [->|C]; [reflexivity|]). rewrite C. reflexivity.
Qed.

Definition seq_parts (e : expr) (pos p : nat) (v : val) (en : env) : Prop :=
  match e with
  | ESeq a b => exists p1 v1 en1 v2 en2 l1 l2, vsem a pos (AOk p1 (v1, en1)) /\ vsem b p1 (AOk p (v2, en2)) /\ en = (en1 ++ en2)%list /\
      spans pos p1 l1 /\ looks (lke a) l1 /\ spans p1 p l2 /\ looks (lke b) l2
  | _ => True
  end.

Ltac bad := match goal with H : stuck _ = true |- _ => discriminate H | H : terminal _ = true |- _ => discriminate H end.

Lemma add_tone_look pos p a t v en args v' : args = [0; 1] ->
  seq_parts (ESeq (ELabel 0 a) (ELabel 1 (ECall t))) pos p v en ->
  run_action AAddTone args pos p en = Ok v' ->
  match r_body (toaq t) with EClass _ => True | _ => False end -> kn (lke a) = true ->
  exists l, spans pos p l /\ looks (Look true true false false false false) l.
Proof.
  intros -> (p1 & v1 & en1 & v2 & en2 & l1 & l2 & V1 & V2 & -> & S1 & L1 & S2 & L2) R C N.
  cbn [lk] in L1. destruct L1 as (L1 & _). specialize (L1 N).
  inversion V1; subst; try bad. inversion V2; subst; try bad.
  match goal with V : vsem (ECall t) p1 _ |- _ => inversion V; subst; try bad end.
  match goal with V : vsem (r_body (toaq t)) p1 _ |- _ => rename V into VT end.
  pose proof (proj1 (rule_look t [])) as TT.
  destruct (r_body (toaq t)) as [|rs| | | | | | | | | | | |]; try contradiction.
  inversion VT; subst; try bad. match goal with K : sem (EClass rs) p1 _ _ |- _ => destruct (class_span _ _ _ _ _ K TT) as (r & I & Sr & Es & Vr) end.
  assert (Dr : tone_digit r = false).
  { destruct (tone_digit r) eqn:D; [exfalso|reflexivity].
    unfold run_action in R. cbn [app get_labels get_label Nat.eqb] in R.
    destruct v1; try discriminate R. cbn in R. rewrite Es in R. unfold add_tone in R.
    rewrite <- (sapp_nil_r (encode_rune r)) in R. rewrite (decode_encode_app r "" Vr) in R. cbn [fst] in R.
    unfold diacritic_of in R. rewrite (digit_out r D) in R. discriminate R. }
  exists (l1 ++ [r]). split; [eapply spans_app; eassumption|].
  assert (ND : no_digit (l1 ++ [r])) by (apply no_digit_app; [exact L1|intros x [<-|[]]; exact Dr]).
  unfold looks. cbn. split; [|split; [|split; [|split; [|split]]]]; try discriminate; intros _; [exact ND|apply no_digit_second, ND].
Qed.

Lemma looked :
  (forall e pos o, vsem e pos o -> terms_ok e = true -> forall p v en, o = AOk p (v, en) ->
     (exists l, spans pos p l /\ looks (lke e) l) /\ seq_parts e pos p v en) /\
  (forall e pos v o, vstar e pos v o -> terms_ok e = true -> forall p v' en, o = AOk p (v', en) ->
     exists l, spans pos p l /\ forall m, looks (look_plus (lke e)) m -> looks (look_plus (lke e)) (m ++ l)).
Proof.
  apply vsem_star_ind; intros; cbn [terms_ok] in *;
    repeat match goal with
    | H : AOk _ _ = AOk _ _ |- _ => injection H as ? ? ?; subst
    | H : AFail = AOk _ _ |- _ => discriminate H
    | H : APanic _ = AOk _ _ |- _ => discriminate H
    | H : stuck ?o = true, E : ?o = AOk _ _ |- _ => rewrite E in H; discriminate H
    | H : (_ && _)%bool = true |- _ => apply andb_prop in H; destruct H
    end.
  all: repeat match goal with
    | T : terms_ok ?e = true, IH : terms_ok ?e = true -> forall p v en, AOk ?q (?x, ?y) = AOk p (v, en) -> _ |- _ =>
        specialize (IH T _ _ _ eq_refl)
    | T : terms_ok ?e = true, IH : terms_ok ?e = true -> _ |- _ => specialize (IH T)
    end.
  all: try (match goal with E : ?o = AOk _ (_, _) |- _ => is_var o; subst o end).
  - destruct (term_span _ _ _ _ _ e0 H s) as (l & A & B). split; [eauto|]. destruct e; try exact I; discriminate e0.
  - destruct (H (proj1 (rule_look r [])) _ _ _ eq_refl) as [(l & A & B) _]. split; [|exact I]. exists l. split; [exact A|].
    apply (rule_look r l). exact B.
  - destruct H as [(l1 & A1 & B1) _]. destruct H0 as [(l2 & A2 & B2) _]. split.
    + exists (l1 ++ l2). split; [eapply spans_app; eassumption|]. apply looks_seq; assumption.
    + exists p1, v1, en1, v2, en2, l1, l2. auto 10.
  - destruct (H _ _ _ eq_refl) as [(l & A & B) _]. split; [|exact I]. exists l. split; [exact A|]. apply looks_join. left. exact B.
  - destruct (H0 _ _ _ eq_refl) as [(l & A & B) _]. split; [|exact I]. exists l. split; [exact A|]. apply looks_join. right. exact B.
  - destruct H as [(l1 & A1 & B1) _]. destruct (H0 _ _ _ eq_refl) as (l2 & A2 & B2). split; [|exact I].
    exists (l1 ++ l2). split; [eapply spans_app; eassumption|]. apply B2, looks_plus1, B1.
  - destruct H as [(l & A & B) _]. split; [|exact I]. exists l. split; [exact A|]. apply looks_opt. left. exact B.
  - split; [|exact I]. exists []. split; [constructor|]. apply looks_opt. right. reflexivity.
  - split; [|exact I]. exists []. split; [constructor|]. apply looks_empty.
  - split; [|exact I]. exists []. split; [constructor|]. apply looks_empty.
  - destruct (H _ _ _ eq_refl) as [(l & A & B) _]. split; [|exact I]. exists l. auto.
  - destruct H as [(l1 & A & B) _]. split; [|exact I]. exists l1. auto.
  - destruct H as [(l & A & B) P]. split; [|exact I].
    destruct a; try (exists l; split; [exact A|exact B]).
    change (exists l0, spans pos p0 l0 /\ looks (match args, e with
      | [0; 1], ESeq (ELabel 0 a) (ELabel 1 (ECall t)) =>
          match r_body (toaq t) with
          | EClass _ => if kn (lke a) then Look true true false false false false else look_top
          | _ => look_top
          end
      | _, _ => look_top end) l0).
    destruct args as [|[|x] [|[|[|y]] [|]]]; try (exists l; split; [exact A|apply looks_top]).
    destruct e as [| | | | |e1 e2| | | | | | | |]; try (exists l; split; [exact A|apply looks_top]).
    destruct e1 as [| | | | | | | | | | | |[|x] a|]; try (exists l; split; [exact A|apply looks_top]).
    destruct e2 as [| | | | | | | | | | | |[|[|x]] b|]; try (exists l; split; [exact A|apply looks_top]).
    destruct b as [| | | |t| | | | | | | | |]; try (exists l; split; [exact A|apply looks_top]).
    destruct (kn (lke a)) eqn:K; [|exists l; split; [exact A|destruct (r_body (toaq t)); apply looks_top]].
    destruct (r_body (toaq t)) eqn:RT; try (exists l; split; [exact A|apply looks_top]).
    eapply add_tone_look; try eassumption; [reflexivity|]. rewrite RT. exact I.
  - exists []. split; [constructor|]. intros m M. rewrite app_nil_r. exact M.
  - destruct H as [(l1 & A1 & B1) _]. destruct (H0 _ _ _ eq_refl) as (l2 & A2 & B2). exists (l1 ++ l2).
    split; [eapply spans_app; eassumption|]. intros m M. rewrite app_assoc. apply B2, looks_plus; assumption.
Qed.

Lemma lead_ok :
  (forall e pos o, vsem e pos o -> terms_ok e = true -> forall n hs p v en, lead (lead_r n) e = Some hs -> o = AOk p (v, en) ->
     exists h l, spans pos p (h :: l) /\ In h hs /\ forall x, In x (h :: l) -> plain_letter x = true) /\
  (forall e pos v o, vstar e pos v o -> True).
Proof.
  apply vsem_star_ind; intros; cbn [terms_ok lead] in *; try exact I; try discriminate;
    repeat match goal with
    | H : AOk _ _ = AOk _ _ |- _ => injection H as ? ? ?; subst
    | H : AFail = AOk _ _ |- _ => discriminate H
    | H : APanic _ = AOk _ _ |- _ => discriminate H
    | H : stuck ?o = true, E : ?o = AOk _ _ |- _ => rewrite E in H; discriminate H
    | H : (_ && _)%bool = true |- _ => apply andb_prop in H; destruct H
    end; try (subst; eauto; fail).
  - destruct e; try discriminate e0; try discriminate H0. cbn in H0. destruct (forallb plain_letter rs) eqn:F; [|discriminate]. injection H0 as <-.
    destruct (class_span _ _ _ _ _ s H) as (r & I1 & S1 & _). exists r, []. split; [exact S1|]. split; [exact I1|].
    rewrite forallb_forall in F. intros x [<-|[]]. apply F. exact I1.
  - destruct n as [|n]; [discriminate|]. cbn [lead_r] in H1. exact (H (proj1 (rule_look r [])) n hs _ _ _ H1 eq_refl).
  - destruct (lead (lead_r n) a) as [x|] eqn:LA; [|discriminate]. destruct (lead (lead_r n) b) as [y|] eqn:LB; [|discriminate].
    match goal with E : Some _ = Some _ |- _ => injection E as <- end.
    destruct (H ltac:(assumption) _ _ _ _ _ LA eq_refl) as (h & l & A & B & C).
    destruct (H0 ltac:(assumption) _ _ _ _ _ LB eq_refl) as (h' & l' & A' & B' & C').
    exists h, (l ++ h' :: l'). split; [exact (spans_app _ _ _ _ _ _ A A')|]. split; [exact B|].
    intros z Hz. change (In z ((h :: l) ++ h' :: l')) in Hz. apply in_app_or in Hz. destruct Hz; auto.
  - destruct (lead (lead_r n0) a) as [x|] eqn:LA; [|discriminate]. destruct (lead (lead_r n0) b) as [y|] eqn:LB; [|discriminate].
    match goal with E : Some _ = Some _ |- _ => injection E as <- end. subst.
    destruct (H ltac:(assumption) _ _ _ _ _ LA eq_refl) as (h & l & A & B & C). exists h, l. split; [exact A|]. split; [apply in_or_app; auto|exact C].
  - destruct (lead (lead_r n) a) as [x|] eqn:LA; [|discriminate]. destruct (lead (lead_r n) b) as [y|] eqn:LB; [|discriminate].
    match goal with E : Some _ = Some _ |- _ => injection E as <- end. subst.
    destruct (H0 ltac:(assumption) _ _ _ _ _ LB eq_refl) as (h & l & A & B & C). exists h, l. split; [exact A|]. split; [apply in_or_app; auto|exact C].
  - destruct a; try discriminate. destruct args as [|[|] [|]]; try discriminate.
    destruct e as [| | | | | | | | | | | |[|] e|]; try discriminate. destruct e; try discriminate.
    eapply (H ltac:(assumption) n); [|reflexivity]. eassumption.
Qed.

Lemma lead_calm :
  (forall e pos o, vsem e pos o -> forall n hs q, lead (lead_r n) e = Some hs -> o <> APanic q) /\
  (forall e pos v o, vstar e pos v o -> True).
Proof.
  apply vsem_star_ind; intros; cbn [lead] in *; try exact I; try discriminate.
  all: try (match goal with H : stuck ?o = true |- _ => destruct o; try discriminate H end).
  all: intro; subst; try discriminate.
  all: repeat match goal with
    | H : match lead ?c ?a with _ => _ end = Some _ |- _ => let E := fresh "L" in destruct (lead c a) eqn:E; [|discriminate H]
    end.
  all: try (match goal with IH : forall n hs q, lead _ ?e = Some hs -> _ <> APanic q, L : lead _ ?e = Some _ |- _ => exact (IH _ _ _ L eq_refl) end).
  - destruct n as [|n]; [discriminate|]. exact (H _ _ _ H0 eq_refl).
  - destruct a; try discriminate. destruct args as [|[|] [|]]; try discriminate.
    destruct e as [| | | | | | | | | | | |[|] e|]; try discriminate. destruct e; try discriminate.
    inversion v0; subst; try bad. match goal with V : vsem (EClass _) _ _ |- _ => inversion V; subst; try bad end.
    discriminate e0.
  - destruct a; try discriminate. destruct args as [|[|] [|]]; try discriminate.
    destruct e as [| | | | | | | | | | | |[|] e|]; try discriminate. destruct e; try discriminate.
    inversion v; subst; try bad. match goal with V : vsem (EClass _) _ _ |- _ => inversion V; subst; try bad end.
Qed.

Definition ahead (pos : nat) (pre : list N) : Prop := exists j, spans pos j pre.

Lemma starts_ok rs pos pre pre' : starts rs pre = Some pre' -> ahead pos pre ->
  exists r w, decode_rune (sdrop pos text) = (r, w) /\ In r rs /\ ahead (pos + w) pre'.
Proof.
  unfold starts. destruct pre as [|r pre]; [discriminate|]. destruct (existsb (N.eqb r) rs) eqn:E; [|discriminate].
  intros X (j & Sj). injection X as <-. inversion Sj; subst. exists r, w. split; [assumption|]. split; [|exists j; assumption].
  apply existsb_exists in E. destruct E as (y & Hy & E). apply N.eqb_eq in E. subst. exact Hy.
Qed.

Lemma eat_ok n : forall r pre pre' pos o err, eat_r n r pre = Some pre' -> ahead pos pre -> sem (ECall r) pos o err ->
  exists p k, o = Some (p, k) /\ ahead p pre'.
Proof.
  induction n as [|n IH]; intros r pre pre' pos o err E A S; [discriminate|]. cbn [eat_r] in E.
  assert (X : forall e o err, eat (eat_r n) e pre = Some pre' -> sem e pos o err -> exists p k, o = Some (p, k) /\ ahead p pre').
  { clear E S o err. induction e; intros o err E S; cbn [eat] in E; try discriminate E.
    - destruct (starts_ok _ _ _ _ E A) as (x & w & D & I1 & A1). inversion S; subst;
        match goal with D' : decode_rune _ = _ |- _ => rewrite D in D'; injection D' as <- <- end; [|contradiction]. eauto.
    - eapply IH; eassumption.
    - inversion S; subst. eapply IHe; eassumption.
    - inversion S; subst. eapply IHe; eassumption. }
  inversion S; subst.
  - match goal with B : sem (r_body _) _ _ _ |- _ => destruct (X _ _ _ E B) as (p1 & k1 & Y & Z) end. injection Y as <- <-. eauto.
  - match goal with B : sem (r_body _) _ _ _ |- _ => destruct (X _ _ _ E B) as (p1 & k1 & Y & Z) end. discriminate Y.
Qed.

Lemma eat_expr n e : forall pre pre' pos o err, eat (eat_r n) e pre = Some pre' -> ahead pos pre -> sem e pos o err ->
  exists p k, o = Some (p, k) /\ ahead p pre'.
Proof.
  induction e; intros pre pre' pos o err E A S; cbn [eat] in E; try discriminate E.
  - destruct (starts_ok _ _ _ _ E A) as (x & w & D & I1 & A1). inversion S; subst;
      match goal with D' : decode_rune _ = _ |- _ => rewrite D in D'; injection D' as <- <- end; [|contradiction]. eauto.
  - eapply eat_ok; eassumption.
  - inversion S; subst. eapply IHe; eassumption.
  - inversion S; subst. eapply IHe; eassumption.
Qed.

Lemma must_ok n : forall r pre pos err, must_r n r pre = true -> ahead pos pre -> ~ sem (ECall r) pos None err.
Proof.
  induction n as [|n IH]; intros r pre pos err E A S; [discriminate|]. cbn [must_r] in E.
  assert (X : forall e pre pos err, must (eat_r n) (must_r n) e pre = true -> ahead pos pre -> ~ sem e pos None err).
  { clear r pre pos err E A S. induction e; intros pre pos err E A S; cbn [must] in E; try discriminate E.
    - destruct (starts rs pre) as [pre'|] eqn:F; [|discriminate]. destruct (starts_ok _ _ _ _ F A) as (x & w & D & I1 & A1).
      inversion S; subst. match goal with D' : decode_rune _ = _ |- _ => rewrite D in D'; injection D' as <- <- end. contradiction.
    - exact (IH _ _ _ _ E A S).
    - destruct (eat (eat_r n) e1 pre) as [pre'|] eqn:F; [|discriminate]. inversion S; subst.
      + match goal with B : sem e1 _ _ _ |- _ => destruct (eat_expr _ _ _ _ _ _ _ F A B) as (p1 & k & Y & _); discriminate Y end.
      + match goal with B : sem e1 _ _ _ |- _ => destruct (eat_expr _ _ _ _ _ _ _ F A B) as (p2 & k & Y & Z) end.
        injection Y as <- <-. eapply IHe2; eassumption.
    - inversion S; subst. apply orb_prop in E. destruct E as [E|E]; [eapply IHe1; eassumption|eapply IHe2; eassumption].
    - inversion S; subst. eapply IHe; eassumption.
    - inversion S; subst. eapply IHe; eassumption.
    - inversion S; subst. eapply IHe; eassumption. }
  inversion S; subst. eapply X; eassumption.
Qed.

Lemma types_fit : fits false types_any = true.
Proof. exact fits_any. Qed.

(** A panic of addTone: at least two letters and a digit. *)
Lemma tone_panic_at x b pos q : tone_choice (ECall x) b = true -> terms_ok b = true ->
  vsem (ECall x) pos AFail -> vsem b pos (APanic q) ->
  exists p l, spans pos p l /\ crammed l /\ exists a args e v, b = EAction a args e /\ vsem e pos (AOk p v).
Proof.
  intros C T F P. unfold tone_choice in C.
  destruct b as [| | | | | | | | | | | | |a args e]; try discriminate C.
  destruct a; try discriminate C.
  destruct args as [|[|] [|[|[|]] [|]]]; try discriminate C.
  destruct e as [| | | | |e1 e2| | | | | | | |]; try discriminate C.
  destruct e1 as [| | | | | | | | | | | |[|] a|]; try discriminate C.
  destruct a as [| | | |d| | | | | | | | |]; try discriminate C.
  destruct e2 as [| | | | | | | | | | | |[|[|]] b|]; try discriminate C.
  destruct b as [| | | |t| | | | | | | | |]; try discriminate C.
  destruct (r_body (toaq t)) as [|rs| | | | | | | | | | | |] eqn:RT; try discriminate C.
  destruct (lead_r 10 d) as [hs|] eqn:LD; [|discriminate C].
  pose proof (proj1 (rule_look t [])) as TT. rewrite RT in TT.
  pose proof (proj1 (rule_look d [])) as TD.
  assert (Calm : ~ vsem (ESeq (ELabel 0 (ECall d)) (ELabel 1 (ECall t))) pos (APanic q)).
  { intro V. inversion V; subst.
    - match goal with K : vsem (ELabel 0 _) _ _ |- _ => inversion K; subst; try bad end.
      match goal with K : vsem (ECall d) _ _ |- _ => exact (proj1 lead_calm _ _ _ K 10 hs q LD eq_refl) end.
    - match goal with K : vsem (ELabel 1 _) _ _ |- _ => inversion K; subst; try bad end.
      match goal with K : vsem (ECall t) _ _ |- _ => inversion K; subst; try bad end.
      match goal with K : vsem (r_body (toaq t)) _ _ |- _ => rewrite RT in K; inversion K; subst; try bad end. }
  inversion P; subst; [|contradiction].
  match goal with K : run_action _ _ _ _ _ = _ |- _ => rename K into R end.
  match goal with K : vsem (ESeq _ _) _ _ |- _ => rename K into VS; inversion VS; subst; try bad end.
  match goal with K : vsem (ELabel 0 _) _ _ |- _ => inversion K; subst; try bad end.
  match goal with K : vsem (ELabel 1 _) _ _ |- _ => inversion K; subst; try bad end.
  match goal with K : vsem (ECall d) _ _ |- _ => rename K into VD end.
  match goal with K : vsem (ECall t) _ _ |- _ => inversion K; subst; try bad end.
  match goal with K : vsem (r_body (toaq t)) _ _ |- _ => rewrite RT in K; inversion K; subst; try bad end.
  match goal with K : sem (EClass rs) _ _ _ |- _ => destruct (class_span _ _ _ _ _ K TT) as (r & I1 & Sr & Es & Vr) end.
  destruct (proj1 lead_ok _ _ _ VD eq_refl 10 hs _ _ _ LD eq_refl) as (h & l & Sh & Hh & Pl).
  pose proof (proj1 (typed is_punct text false types_any types_fit ltac:(discriminate)) _ _ _ VD _ _ eq_refl) as [TyD _].
  assert (Dr : tone_digit r = true /\ forall g, In g (filter tone_digit rs) -> must_r 10 x [h; g] = true).
  { assert (Q : exists ds, can_add ds (map encode_rune (filter (fun r => negb (tone_digit r)) rs)) = true /\
        (exists h' s', v1 = VStr (h' ++ s') /\ In h' ds) /\
        forallb (fun h => forallb (fun g => must_r 10 x [h; g]) (filter tone_digit rs)) hs = true).
    { destruct (rt_of types_any d); try discriminate C; apply andb_prop in C; destruct C as [C1 C2]; exists l0; (split; [exact C1|]); (split; [|exact C2]).
      - destruct TyD as (s' & E & J). exists s', ""%string. rewrite sapp_nil_r. auto.
      - destruct TyD as (h' & s' & E & J). eauto. }
    destruct Q as (ds & C1 & (h' & s' & -> & J) & C2). split.
    - destruct (tone_digit r) eqn:Dg; [reflexivity|exfalso].
      destruct (can_add_ok _ _ h' s' (encode_rune r) C1 J) as (y & Y).
      { apply in_map. apply filter_In. rewrite Dg. auto. }
      unfold run_action in R. cbn [app get_labels get_label Nat.eqb run_act bind] in R. rewrite Es, Y in R. discriminate R.
    - rewrite forallb_forall in C2. specialize (C2 h Hh). rewrite forallb_forall in C2. exact C2. }
  destruct Dr as [Dr M]. exists p, ((h :: l) ++ [r]). pose proof (spans_app _ _ _ _ _ _ Sh Sr) as Sp. split; [exact Sp|].
  split; [|do 4 eexists; split; [reflexivity|exact VS]].
  destruct l as [|b l].
  - exfalso. inversion F; subst; try bad. match goal with K : sem (ECall x) _ None _ |- _ => revert K end.
    eapply must_ok; [apply M; apply filter_In; split; [exact I1|exact Dr]|]. exists p. exact Sp.
  - destruct (exists_last (l := h :: b :: l)) as (u & z & E); [discriminate|].
    destruct u as [|u0 u]; [discriminate E|]. destruct (exists_last (l := u0 :: u)) as (u' & y & E'); [discriminate|].
    rewrite E' in E. rewrite E in *. exists u', y, z, r, []. split; [rewrite <- !app_assoc; reflexivity|].
    split; [|split; [|exact Dr]]; apply Pl; apply in_or_app; [left; apply in_or_app; right; left; reflexivity|right; left; reflexivity].
Qed.

Lemma tone_panic x b pos q : tone_choice (ECall x) b = true -> terms_ok b = true ->
  vsem (ECall x) pos AFail -> vsem b pos (APanic q) -> exists p l, spans pos p l /\ crammed l.
Proof. intros C T F P. destruct (tone_panic_at _ _ _ _ C T F P) as (p & l & A & B & _). eauto. Qed.

Lemma act_ty_nd a ts : a <> AAddTone -> act_ty true a ts = act_ty false a ts.
Proof. intro H. destruct a; try reflexivity. congruence. Qed.

Lemma panicked :
  (forall e pos o, vsem e pos o -> terms_ok e = true -> tone_acts e = true -> forall q, o = APanic q ->
     exists p l, spans pos p l /\ crammed l) /\
  (forall e pos v o, vstar e pos v o -> terms_ok e = true -> tone_acts e = true -> forall q, o = APanic q ->
     exists p l, spans pos p l /\ crammed l).
Proof.
  assert (Cut : forall pos p1 l1 p l, spans pos p1 l1 -> spans p1 p l -> crammed l -> exists p l, spans pos p l /\ crammed l).
  { intros pos p1 l1 p l A B C. exists p, (l1 ++ l). split; [eapply spans_app; eassumption|].
    destruct C as (u & a & b & d & v & -> & C). exists (l1 ++ u), a, b, d, v. rewrite app_assoc. auto. }
  apply vsem_star_ind; intros; cbn [terms_ok tone_acts] in *;
    repeat match goal with
    | H : AOk _ _ = APanic _ |- _ => discriminate H
    | H : AFail = APanic _ |- _ => discriminate H
    | H : (_ && _)%bool = true |- _ => apply andb_prop in H; destruct H
    end; try (eauto; fail).
  - exact (H (proj1 (rule_look r [])) (rule_acts r) _ H2).
  - destruct (proj1 looked _ _ _ v ltac:(assumption) _ _ _ eq_refl) as [(l1 & S1 & _) _].
    subst o. destruct (H0 ltac:(assumption) ltac:(assumption) _ eq_refl) as (p & l & A & B). eapply Cut; eassumption.
  - subst o. match goal with K : (tone_acts b || _)%bool = true |- _ => apply orb_prop in K; destruct K as [K|K] end; [eauto|].
    match goal with K : tone_choice a b = true |- _ => destruct a; try discriminate K; eapply tone_panic; eassumption end.
  - destruct (proj1 looked _ _ _ v ltac:(assumption) _ _ _ eq_refl) as [(l1 & S1 & _) _].
    subst o. destruct (H0 ltac:(assumption) ltac:(assumption) _ eq_refl) as (p & l & A & B). eapply Cut; eassumption.
  - exfalso. assert (Na : a <> AAddTone) by (intros ->; discriminate).
    match goal with K : match a with _ => _ end = true |- _ => rename K into TA end.
    assert (Inf : exists t te, infer false (rt_of types_any) (EAction a args e) = Some (t, te)).
    { assert (X : match infer false (rt_of types_any) (EAction a args e) with Some _ => true | None => false end = true).
      { destruct a; try discriminate TA; apply andb_prop in TA; exact (proj2 TA). }
      destruct (infer false (rt_of types_any) (EAction a args e)) as [[t te]|]; [eauto|discriminate X]. }
    destruct Inf as (t & te & Inf). cbn [infer] in Inf.
    destruct (infer false (rt_of types_any) e) as [[t1 te1]|] eqn:I1; [|discriminate].
    destruct (all_some (fun l => tget l te1) args) as [ts|] eqn:I2; [|discriminate].
    destruct (act_ty false a ts) as [t2|] eqn:I3; [|discriminate].
    destruct (proj1 (typed is_punct text false types_any types_fit ltac:(discriminate)) _ _ _ v0 _ _ I1) as [_ En].
    destruct (tgets_ok _ _ _ _ En I2) as (vs & G & Fv).
    rewrite <- (act_ty_nd a ts Na) in I3.
    pose proof (act_ty_ok true a ts t2 vs pos p I3 Fv) as R. unfold run_action in e0. rewrite G in e0. rewrite e0 in R.
    destruct R; discriminate.
  - subst o. destruct a; try (apply andb_prop in H1; destruct H1); eauto; discriminate.
  - destruct (proj1 looked _ _ _ v0 ltac:(assumption) _ _ _ eq_refl) as [(l1 & S1 & _) _].
    subst o. destruct (H0 ltac:(assumption) ltac:(assumption) _ eq_refl) as (p & l & A & B). eapply Cut; eassumption.
Qed.

End Sound.

Section Api.
Variable is_punct : N -> bool.
Variable text : string.
Hypothesis Hp : punct_plain is_punct.
Notation sem := (@sem toaq is_punct text).
Notation vsem := (vsem toaq is_punct text).

Lemma call_ok r : terms_ok (ECall r) = true.
Proof. reflexivity. Qed.

(** The text that is consumed, rune by rune. *)
Lemma consumed q k err : sem (ECall r_full_text) 0 (Some (q, k)) err ->
  exists l, spans text 0 q l /\ runes (stake q text) = l /\ fst (decode_rune (sdrop q text)) = rune_error.
Proof.
  intro H. destruct (proj1 (sem_spans is_punct text) _ _ _ _ H eq_refl _ _ eq_refl) as (l & A). exists l. split; [exact A|].
  destruct (spans_text _ _ _ _ A) as [E V]. rewrite Nat.sub_0_r in E. cbn [sdrop] in E. split; [|eapply full_stops; exact H].
  rewrite E. apply runes_back. exact V.
Qed.

Lemma late_panics p1 p2 : reach is_punct text p1 -> reach is_punct text p2 ->
  (exists q, fst (text_of is_punct p1) = Panic q) <->
  (exists n, fst (tree is_punct p2) = Ok (Got (Some n)) /\ late_digit (p_text n)).
Proof.
  intros R1 R2. apply reach_pinv in R1. pose proof (proj1 (text_ok is_punct text p1 R1)) as T1.
  pose proof (proj1 (tree_sem is_punct text p2 R2)) as T2. split.
  - intros (q & E). rewrite E in T1.
    assert (X : exists p n err, sem (ECall r_full_text) 0 (Some (p, [n])) err /\ vsem (ECall r_full_text) 0 (APanic q)).
    { inversion T1; subst.
      - match goal with K : sem _ 0 (Some (?p, ?k)) ?err |- _ => inversion K; subst; repeat eexists; eassumption end.
      - match goal with V : vsem _ 0 _ |- _ => destruct (text_typed _ _ _ V) as (n & -> & _) end.
        match goal with N : forall n, _ <> _ |- _ => contradiction (N n); reflexivity end. }
    destruct X as (p & n & err & S & V). exists n. split; [apply T2; eauto|].
    destruct (consumed _ _ _ S) as (m & A & B & C).
    destruct (proj1 (panicked is_punct text Hp) _ _ _ V eq_refl eq_refl _ eq_refl) as (p' & l & A' & B').
    destruct (spans_prefix _ _ _ _ A' _ _ A C) as (m' & ->).
    assert (N : p_text n = stake p text) by (inversion S; subst; cbn; rewrite Nat.sub_0_r; reflexivity).
    unfold late_digit. rewrite N, B. destruct B' as (u & a & b & d & v & -> & B'). exists u, a, b, d, (v ++ m').
    rewrite <- app_assoc. auto.
  - intros (n & E & L). apply T2 in E. destruct E as (q & err & S). destruct (consumed _ _ _ S) as (m & A & B & C).
    assert (N : p_text n = stake q text) by (inversion S; subst; cbn; rewrite Nat.sub_0_r; reflexivity).
    unfold late_digit in L. rewrite N, B in L.
    assert (NV : forall q' v en, ~ vsem (ECall r_full_text) 0 (AOk q' (v, en))).
    { intros q' v en V. destruct (vsem_call_shape _ _ _ _ _ _ _ V) as (k & err' & S').
      destruct (sem_det _ _ _ _ _ _ _ _ _ S S') as [X _]. injection X as <- <-.
      destruct (proj1 (looked is_punct text Hp) _ _ _ V eq_refl _ _ _ eq_refl) as [(l & A' & K) _].
      destruct (spans_prefix _ _ _ _ A' _ _ A C) as (m' & Em). destruct (spans_prefix _ _ _ _ A _ _ A' C) as (m2 & Em').
      assert (m' = []) by (apply (f_equal (@length BinNums.N)) in Em; apply (f_equal (@length BinNums.N)) in Em'; rewrite app_length in Em, Em'; destruct m'; [reflexivity|cbn in Em; lia]).
      subst m'. rewrite app_nil_r in Em. subst l. destruct K as (_ & _ & _ & K & _). destruct (K full_look) as [K' _]. exact (K' L). }
    destruct (fst (text_of is_punct p1)) as [o|q'|] eqn:F; [exfalso|eauto|inversion T1].
    inversion T1; subst; try (eapply NV; eassumption).
    match goal with K : sem _ 0 None _ |- _ => destruct (sem_det _ _ _ _ _ _ _ _ _ S K) as [X _]; discriminate X end.
Qed.
End Api.
