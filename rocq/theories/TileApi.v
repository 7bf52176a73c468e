(** The words of a parsed tree tile the text: rules, expressions and the exported functions. *)

From Coq Require Import String Ascii NArith ZArith PArith List Bool Permutation FMapPositive Lia.
From Verif Require Import Base Utf8 PegSyntax Grammar Peg PegToaq PegSpec PegFacts PegToaqFacts Ast AstInd ModFacts
  Action ActionSpec Parser ActionFacts ParserSpec ApiFacts VisitSpec ModSpec ModWords TileSpec TileFacts.
Import ListNotations.
Open Scope nat_scope.
Open Scope list_scope.
Open Scope res_scope.

(** ** Expressions *)

Definition kind_eq_dec (a b : kind) : {a = b} + {a <> b}.
Proof. decide equality. Defined.

(** Rules that consume nothing and have no words. *)
Definition still (r : positive) : bool := match r_body (toaq r) with ENot _ => true | _ => false end.

(** Sequences of which all that is consumed is labelled. *)
Fixpoint cov (e : expr) : bool :=
  match e with
  | ELabel _ _ | EAnd _ | ENot _ => true
  | ECall r => still r
  | EOpt (ECall r) => still r
  | ESeq a b => cov a && cov b
  | _ => false
  end.

Fixpoint labels (e : expr) : list nat :=
  match e with ELabel l _ => [l] | ESeq a b => labels a ++ labels b | _ => [] end.

Definition kind_of (e : expr) : kind :=
  match e with
  | EAction a _ _ => out_kind a
  | ECall r => match r_body (toaq r) with EAction a _ _ => out_kind a | _ => KNo end
  | _ => KNo
  end.

Fixpoint lkinds (e : expr) : list kind :=
  match e with ELabel _ e1 => [kind_of e1] | ESeq a b => lkinds a ++ lkinds b | _ => [] end.

Fixpoint kmatch (need have : list kind) : bool :=
  match need, have with
  | [], _ => true
  | k :: n', h :: h' => (match k with KNo => true | _ => if kind_eq_dec k h then true else false end) && kmatch n' h'
  | _ :: _, [] => false
  end.

Fixpoint distinct (l : list nat) : bool :=
  match l with [] => true | x :: l' => negb (existsb (Nat.eqb x) l') && distinct l' end.

Definition stringy (a : act) : bool :=
  match a with AEmpty | ADotless | ADiacritic _ | AAddTone => true | _ => false end.

Definition act_ok (a : act) (args : list nat) (e : expr) : bool :=
  if stringy a then true else
  if wordy a then negb (nul toaq_nullable e) else
  match a with
  | AWordSpace => false
  | _ => cov e && (if list_eq_dec Nat.eq_dec (labels e) args then true else false) &&
         distinct args && kmatch (needs a) (lkinds e)
  end.

Fixpoint exp_ok (e : expr) : bool :=
  match e with
  | ELit _ | EClass _ | EAny | EPunct => true
  | ECall r => negb (Pos.eqb r r_word)
  | ESeq a b | EChoice a b => exp_ok a && exp_ok b
  | EPlus e | EOpt e | EAnd e | ENot e | ESub e | ELabel _ e => exp_ok e
  | EAction a args e => exp_ok e && act_ok a args e
  end.

Lemma toaq_exp_check : forallb (fun p => Pos.eqb (fst p) r_word || exp_ok (r_body (snd p))) (PositiveMap.elements rule_map) = true.
Proof. vm_compute. reflexivity. Qed.

Lemma toaq_exp_ok r : r <> r_word -> exp_ok (r_body (toaq r)) = true.
Proof.
  intro N. unfold toaq. destruct (PositiveMap.find r rule_map) as [x|] eqn:F; [|reflexivity].
  pose proof toaq_exp_check as C. rewrite forallb_forall in C.
  specialize (C (r, x) (PositiveMap.elements_correct _ _ F)). cbn [fst snd] in C.
  apply orb_prop in C. destruct C as [C|C]; [|exact C]. apply Pos.eqb_eq in C. contradiction.
Qed.

Lemma distinct_nodup l : distinct l = true -> NoDup l.
Proof.
  induction l as [|x l IH]; cbn [distinct]; intro H; [constructor|]. apply andb_prop in H. destruct H as [A B].
  constructor; [|auto]. intro I. rewrite negb_true_iff in A. assert (existsb (Nat.eqb x) l = true); [|congruence].
  apply existsb_exists. exists x. split; [exact I|apply Nat.eqb_refl].
Qed.

Lemma get_labels_skip ls l v en : ~ In l ls -> get_labels ls ((l, v) :: en) = get_labels ls en.
Proof.
  induction ls as [|x ls IH]; intro N; [reflexivity|]. cbn [get_labels get_label].
  destruct (Nat.eqb_spec x l) as [->|E]; [exfalso; apply N; left; reflexivity|].
  rewrite IH; [reflexivity|]. intro I. apply N. right. exact I.
Qed.

Lemma get_labels_all (en : env) : NoDup (map fst en) -> get_labels (map fst en) en = Some (map snd en).
Proof.
  induction en as [|[l v] en IH]; intro N; [reflexivity|]. cbn [map fst snd] in *. apply NoDup_cons_iff in N. destruct N as [A B].
  cbn [get_labels get_label]. rewrite Nat.eqb_refl, get_labels_skip, IH by assumption. reflexivity.
Qed.

Lemma kmatch_fits n : forall h vs, kmatch n h = true -> kfits h vs -> kfits n vs.
Proof.
  induction n as [|k n IH]; intros [|x h] vs K F; [exact I|exact I|discriminate|]. cbn [kmatch] in K. apply andb_prop in K. destruct K as [K1 K2].
  destruct vs as [|v vs]; [destruct k; exact I|]. cbn [kfits] in F |- *. destruct F as [F1 F2]. split; [|eauto].
  destruct k; try exact I; destruct (kind_eq_dec _ x) as [<-|]; try discriminate; exact F1.
Qed.

Lemma kfits_app a b u v : length a = length u -> kfits a u -> kfits b v -> kfits (a ++ b) (u ++ v).
Proof.
  revert u. induction a as [|k a IH]; intros [|x u] E A B; try discriminate; [exact B|]. cbn [app kfits] in *. split; [tauto|]. apply IH; [cbn [length] in E; lia|tauto|exact B].
Qed.

Lemma labels_lkinds e : length (labels e) = length (lkinds e).
Proof. induction e; cbn [labels lkinds length]; try reflexivity. rewrite !app_length. congruence. Qed.

Lemma stringy_out a i j vs v : stringy a = true -> run_act a i j vs = Ok v -> exists s, v = VStr s.
Proof. intros S E. destruct a; try discriminate S; inva E; eauto. Qed.

Lemma wordy_out a i j vs v : wordy a = true -> run_act a i j vs = Ok v -> i < j -> exists l, span v i l j.
Proof.
  intros S E L. destruct a; try discriminate S; inva E.
  all: match goal with |- exists l, span ?v _ l _ => exists (vtoks v) end.
  all: cbn; split; [apply shuffled_refl|auto].
Qed.

Lemma vplus0_span v i l j : span v i l j -> exists l', span (vplus0 v) i l' j.
Proof.
  intro S. destruct v; cbn [vplus0]; try (exists []; reflexivity). exists l. cbn [span vtoks vclose] in *.
  unfold toks in *. cbn [words flat_map ctoks map] in *. rewrite !app_nil_r. exact S.
Qed.

Lemma vplus_span a v i l q l1 j : span a i l q -> span v q l1 j -> exists l', span (vplus a v) i l' j.
Proof.
  intros S1 S2. destruct a; cbn [vplus]; try (exists []; reflexivity); try (destruct v; exists []; reflexivity).
  match goal with n : node |- _ => destruct n end; destruct v; try (exists []; reflexivity). cbn [span vtoks vclose] in *. destruct S1 as [P1 T1], S2 as [P2 T2].
  exists (l ++ l1). split; [|eapply tiles_app; eassumption].
  unfold toks in *. cbn [words ctoks] in *. rewrite !flat_map_app, map_app. cbn [flat_map]. rewrite !app_nil_r.
  eapply shuffled_app; try eassumption; [apply incl_appl, incl_refl|apply incl_appr, incl_refl].
Qed.

Section Text.

Variable is_punct : N -> bool.
Variable text : string.
Notation sem := (@sem toaq is_punct text).
Notation vsem := (@vsem toaq is_punct text).
Notation vstar := (@vstar toaq is_punct text).
Notation L := (String.length text).
Notation nul := (nul toaq_nullable).

Definition spans (e : expr) (pos : nat) (o : aout (val * env)) : Prop :=
  match o with
  | AOk p (v, en) =>
      pos <= p <= L /\ (nul e = false -> pos < p) /\ (exists l, span v pos l p) /\ kfit (kind_of e) v /\
      (cov e = true -> (exists l, covers (map snd en) pos l p) /\ map fst en = labels e /\ kfits (lkinds e) (map snd en))
  | _ => True
  end.

Lemma stuck_spans e pos o : stuck o = true -> spans e pos o.
Proof. destruct o; [reflexivity|reflexivity|discriminate]. Qed.

Lemma spans_all :
  (forall e pos o, vsem e pos o -> pos <= L -> exp_ok e = true -> spans e pos o) /\
  (forall e pos v o, vstar e pos v o -> pos <= L -> exp_ok e = true -> forall i l, span v i l pos -> i <= pos ->
     match o with AOk p (v', en) => pos <= p <= L /\ exists l', span v' i l' p | _ => True end).
Proof.
  apply vsem_star_ind; try (intros; apply stuck_spans; assumption || reflexivity).
  - intros e pos p k err T S B O. destruct (sem_some _ _ _ _ _ _ toaq_wf _ _ _ _ _ S B) as [R1 R2].
    destruct e; try discriminate T; (repeat split; [tauto|tauto|exact R2|exists []; reflexivity|discriminate..]).
  - intros r pos p k err v en S _ IH B O. destruct (sem_some _ _ _ _ _ _ toaq_wf _ _ _ _ _ S B) as [R1 R2].
    assert (N : r <> r_word) by (intros ->; discriminate O). specialize (IH B (toaq_exp_ok r N)).
    destruct IH as (_ & _ & I3 & I4 & I5). repeat split; [tauto|tauto|exact R2|exact I3| |..].
    + cbn [kind_of]. destruct (r_body (toaq r)); try exact I. exact I4.
    + cbn [cov] in *. unfold still in *. destruct (r_body (toaq r)); try discriminate. destruct (I5 eq_refl) as ((l & C) & F & _).
      destruct en; [|discriminate F]. destruct C as [-> _]. exists []. split; reflexivity.
  - intros a b pos p1 v1 en1 p2 v2 en2 _ I1 _ I2 B O. cbn [exp_ok] in O. apply andb_prop in O. destruct O as [O1 O2].
    destruct (I1 B O1) as (A1 & A2 & _ & _ & A5). destruct (I2 ltac:(lia) O2) as (B1 & B2 & _ & _ & B5).
    assert (Q : vcat v1 v2 = VUnit \/ exists s, vcat v1 v2 = VStr s) by (destruct v1, v2; cbn [vcat]; eauto).
    repeat split; [lia|lia| | | | |].
    + cbn [PegFacts.nul]. intro N. apply andb_false_iff in N. destruct N as [N|N]; [specialize (A2 N)|specialize (B2 N)]; lia.
    + exists []. destruct Q as [->|[s ->]]; reflexivity.
    + cbn [cov] in H. apply andb_prop in H. destruct H as [C1 C2]. destruct (A5 C1) as ((l1 & D1) & _), (B5 C2) as ((l2 & D2) & _).
      exists (l1 ++ l2). rewrite map_app. eapply covers_app; eassumption.
    + cbn [cov] in H. apply andb_prop in H. destruct H as [C1 C2]. destruct (A5 C1) as (_ & D1 & _), (B5 C2) as (_ & D2 & _).
      cbn [labels]. rewrite map_app. congruence.
    + cbn [cov] in H. apply andb_prop in H. destruct H as [C1 C2]. destruct (A5 C1) as (_ & D1 & E1), (B5 C2) as (_ & D2 & E2).
      cbn [lkinds]. rewrite map_app. apply kfits_app; try assumption.
      rewrite <- labels_lkinds, <- D1, !map_length. reflexivity.
  - intros a b pos o _ I1 N B O. cbn [exp_ok] in O. apply andb_prop in O. destruct O as [O1 O2]. specialize (I1 B O1).
    destruct o as [| |p [v en]]; try exact I. destruct I1 as (A1 & A2 & A3 & A4 & A5). repeat split; try discriminate; try tauto.
    cbn [PegFacts.nul]. intro X. apply orb_false_iff in X. tauto.
  - intros a b pos o _ _ _ I1 B O. cbn [exp_ok] in O. apply andb_prop in O. destruct O as [O1 O2]. specialize (I1 B O2).
    destruct o as [| |p [v en]]; try exact I. destruct I1 as (A1 & A2 & A3 & A4 & A5). repeat split; try discriminate; try tauto.
    cbn [PegFacts.nul]. intro X. apply orb_false_iff in X. tauto.
  - intros e pos p1 v1 en1 o _ I1 _ I2 B O. destruct (I1 B O) as (A1 & A2 & (l & A3) & _).
    destruct (vplus0_span _ _ _ _ A3) as (l' & A4). specialize (I2 ltac:(lia) O pos l' A4 ltac:(lia)).
    destruct o as [| |p [v en]]; try exact I. destruct I2 as [C1 C2]. repeat split; try discriminate; try tauto; try lia.
  - intros e pos p v en _ I1 B O. destruct (I1 B O) as (A1 & A2 & A3 & A4 & A5).
    repeat split; try discriminate; try tauto.
    destruct e; try discriminate. specialize (A5 H). destruct A5 as ((l & C) & F & _). destruct en; [|discriminate F].
    exists []. destruct C as [-> _]. split; reflexivity.
  - intros e pos _ _ B O. repeat split; try discriminate; try lia.
    + exists []. split; reflexivity.
    + exists []. split; reflexivity.
  - intros e pos p v _ _ B O. repeat split; try discriminate; try lia; exists []; split; reflexivity.
  - intros e pos _ _ B O. repeat split; try discriminate; try lia; exists []; split; reflexivity.
  - intros e pos o _ IH B O. specialize (IH B O). destruct o as [| |p [v en]]; try exact I.
    destruct IH as (A1 & A2 & A3 & A4 & A5). repeat split; try discriminate; try tauto.
  - intros l e pos p v en _ IH B O. destruct (IH B O) as (A1 & A2 & A3 & A4 & A5). repeat split; try tauto.
    destruct A3 as (l0 & A3). exists l0. cbn [map snd]. exists l0, [], p. rewrite app_nil_r. repeat split; assumption.
  - intros a args e pos p v en v' _ IH E B O. cbn [exp_ok] in O. apply andb_prop in O. destruct O as [O1 O2].
    destruct (IH B O1) as (A1 & A2 & _ & _ & A5). unfold run_action in E.
    destruct (get_labels args en) as [vs|] eqn:G; [|discriminate]. unfold act_ok in O2.
    assert (K : (exists l, span v' pos l p) /\ kfit (out_kind a) v').
    { destruct (stringy a) eqn:Sa.
      - destruct (stringy_out _ _ _ _ _ Sa E) as (s & ->). split; [exists []; reflexivity|]. destruct (out_kind a); exact I.
      - destruct (wordy a) eqn:W.
        + apply negb_true_iff in O2. split; [exact (wordy_out _ _ _ _ _ W E (A2 O2))|]. destruct a; try discriminate W; exact I.
        + assert (N : a <> AWordSpace) by (intros ->; discriminate O2).
          assert (O3 : cov e && (if list_eq_dec Nat.eq_dec (labels e) args then true else false) && distinct args && kmatch (needs a) (lkinds e) = true)
            by (destruct a; try exact O2; congruence).
          clear O2. apply andb_prop in O3. destruct O3 as [O3 M]. apply andb_prop in O3. destruct O3 as [O3 D]. apply andb_prop in O3. destruct O3 as [C Q].
          destruct (list_eq_dec _ _ _) as [Q'|]; [|discriminate]. clear Q. destruct (A5 C) as ((l & C1) & C2 & C3).
          rewrite <- Q', <- C2 in G. rewrite get_labels_all in G by (rewrite C2, Q'; apply distinct_nodup, D). injection G as <-.
          pose proof (kmatch_fits _ _ _ M C3) as F. split; [exists l; exact (act_span _ _ _ _ _ _ E F W N C1)|exact (act_kind _ _ _ _ _ E F)]. }
    destruct K as [K1 K2]. repeat split; try discriminate; try tauto.
  - intros e pos v _ _ B O i l S Hi. split; [lia|]. exists l. exact S.
  - intros; exact I.
  - intros e pos v p1 v1 en1 o _ I1 _ I2 B O i l S Hi. destruct (I1 B O) as (A1 & _ & (l1 & A3) & _).
    destruct (vplus_span _ _ _ _ _ _ _ S A3) as (l2 & A4). specialize (I2 ltac:(lia) O i l2 A4 ltac:(lia)).
    destruct o as [| |p [v' en]]; try exact I. destruct I2 as [C1 C2]. split; [lia|exact C2].
Qed.


Lemma value_tiled e pos p n en : vsem e pos (AOk p (VNode n, en)) -> pos <= L -> exp_ok e = true ->
  pos <= p <= L /\ tiled n pos p.
Proof.
  intros V B O. destruct (proj1 spans_all _ _ _ V B O) as (R & _ & (l & [P F] & T) & _). split; [exact R|].
  exists l. split; [exact P|]. split; [exact T|]. intros f H. apply F. intros t I. apply H, ctoks_ki, I.
Qed.

Lemma text_tiled p n : reach is_punct text p -> fst (text_of is_punct p) = Ok (Got (Some n)) ->
  exists q, q <= L /\ fst (decode_rune (sdrop q text)) = rune_error /\
    (forall rs, text = of_runes rs -> Forall (fun r => valid_rune r = true /\ r <> rune_error) rs -> q = L) /\ tiled n 0 q.
Proof.
  intros R E. apply (proj1 (text_sem _ _ p R)) in E. destruct E as (q & V). exists q.
  destruct (vsem_call_shape _ _ _ _ _ _ _ V) as (k & err & S).
  destruct (value_tiled _ _ _ _ _ V (Nat.le_0_l _) eq_refl) as [B T]. split; [lia|]. split; [exact (full_stops _ _ _ _ _ S)|].
  split; [|exact T]. intros rs E H. exact (full_consumes _ _ _ _ _ _ E H S).
Qed.

End Text.

Lemma tiles_in i l j : tiles i l j -> i <= j /\ forall t, In t l -> i <= t_s t < t_e t /\ t_e t <= j.
Proof.
  revert i. induction l as [|t l IH]; intros i T; cbn [tiles] in T; [subst; split; [lia|contradiction]|].
  destruct T as (E & F & T). destruct (IH _ T) as [G H]. split; [lia|]. intros x [<-|I]; [lia|]. specialize (H x I). lia.
Qed.

Lemma tiles_sorted i l j : tiles i l j -> forall a t b u c, l = a ++ t :: b ++ u :: c -> t_e t <= t_s u.
Proof.
  intros T a. revert i l T. induction a as [|x a IH]; intros i l T t b u c ->; cbn [app tiles] in T.
  - destruct T as (_ & _ & T). destruct (tiles_in _ _ _ T) as [_ H]. apply (H u), in_or_app. right. left. reflexivity.
  - destruct T as (_ & _ & T). exact (IH _ _ T t b u c eq_refl).
Qed.

Lemma tiled_in n i j : tiled n i j -> forall t, In t (toks n) -> i <= t_s t < t_e t /\ t_e t <= j.
Proof. intros (l & P & T & _) t I. apply (proj2 (tiles_in _ _ _ T)), (Permutation_in _ P I). Qed.

Lemma filter_split {A} (f : A -> bool) l x y : before x y l -> f x = true -> f y = true -> before x y (filter f l).
Proof.
  intros (a & b & c & ->) X Y. exists (filter f a), (filter f b), (filter f c).
  rewrite filter_app. cbn [filter]. rewrite X, filter_app. cbn [filter]. rewrite Y. reflexivity.
Qed.

Lemma filter_cons_split {A} (f : A -> bool) x l r : filter f l = x :: r -> exists a b, l = a ++ x :: b /\ filter f b = r.
Proof.
  induction l as [|y l IH]; cbn [filter]; [discriminate|]. destruct (f y).
  - intro E. injection E as -> <-. exists [], l. split; reflexivity.
  - intro E. destruct (IH E) as (a & b & -> & F). exists (y :: a), b. split; [reflexivity|exact F].
Qed.

Lemma filter_app_split {A} (f : A -> bool) u : forall l v, filter f l = u ++ v -> exists a b, l = a ++ b /\ filter f b = v.
Proof.
  induction u as [|x u IH]; intros l v E; [exists [], l; split; [reflexivity|exact E]|].
  destruct (filter_cons_split _ _ _ _ E) as (a & b & -> & F). destruct (IH _ _ F) as (c & d & -> & G).
  exists (a ++ x :: c), d. split; [rewrite <- app_assoc; reflexivity|exact G].
Qed.

Lemma before_filter {A} (f : A -> bool) l x y : before x y (filter f l) -> before x y l.
Proof.
  intros (a & b & c & E). destruct (filter_app_split _ _ _ _ E) as (a' & r & -> & F).
  destruct (filter_cons_split _ _ _ _ F) as (a'' & r' & -> & G). destruct (filter_app_split _ _ _ _ G) as (b' & r'' & -> & H).
  destruct (filter_cons_split _ _ _ _ H) as (b'' & c' & -> & _). exists (a' ++ a''), (b' ++ b''), c'. rewrite <- !app_assoc. reflexivity.
Qed.

Definition token_eq_dec (a b : token) : {a = b} + {a <> b}.
Proof. repeat decide equality. Defined.

Lemma tiled_order n i j : tiled n i j -> forall t u, before t u (toks n) -> ~ ki_of n t -> ~ ki_of n u -> t_e t <= t_s u.
Proof.
  intros (l & _ & T & F) t u B Nt Nu. pose (f x := if in_dec token_eq_dec x (ctoks n) then false else true).
  assert (Hf : forall x, ~ ki_of n x -> f x = true).
  { intros x H. unfold f. destruct (in_dec _ _ _) as [I|]; [|reflexivity]. exfalso. apply H, ctoks_ki, I. }
  assert (E : filter f (toks n) = filter f l).
  { apply F. intros x H. unfold f. destruct (in_dec _ _ _) as [|N]; [reflexivity|]. exfalso. apply N, ki_ctoks, H. }
  pose proof (filter_split f _ _ _ B (Hf t Nt) (Hf u Nu)) as B'. rewrite E in B'. apply before_filter in B'.
  destruct B' as (a & b & c & B'). exact (tiles_sorted _ _ _ T a t b u c B').
Qed.

Lemma tiled_exact n i j : tiled n i j -> (forall t, ~ ki_of n t) -> tiles i (toks n) j.
Proof.
  intros (l & _ & T & F) N. specialize (F (fun _ => true) ltac:(intros t K; destruct (N t K))).
  assert (G : forall (x : list token), filter (fun _ => true) x = x) by (induction x as [|y x IH]; cbn [filter]; congruence).
  rewrite !G in F. rewrite F. exact T.
Qed.

Lemma text_words is_punct text p n : reach is_punct text p -> fst (text_of is_punct p) = Ok (Got (Some n)) ->
  exists q, q <= String.length text /\ fst (decode_rune (sdrop q text)) = rune_error /\
    (forall rs, text = of_runes rs -> Forall (fun r => valid_rune r = true /\ r <> rune_error) rs -> q = String.length text) /\
    (forall t, In t (toks n) -> t_s t < t_e t <= q) /\
    (exists l, Permutation (toks n) l /\ tiles 0 l q) /\
    (forall t u, before t u (toks n) -> ~ ki_of n t -> ~ ki_of n u -> t_e t <= t_s u) /\
    ((forall kio ki d, ~ below (NParen kio ki d) n) -> tiles 0 (toks n) q).
Proof.
  intros R E. destruct (text_tiled is_punct text p n R E) as (q & A & B & C & T). exists q. repeat split; try assumption.
  - apply (tiled_in _ _ _ T t H).
  - apply (tiled_in _ _ _ T t H).
  - destruct T as (l & P & T & _). eauto.
  - exact (tiled_order _ _ _ T).
  - intro N. apply (tiled_exact _ _ _ T). intros t (kio & ki & d & X & _). exact (N kio ki d X).
Qed.
