(** The words of a parsed tree tile the text. *)

From Coq Require Import String Ascii NArith ZArith PArith List Bool Permutation FMapPositive Lia.
From Verif Require Import Base Utf8 PegSyntax Grammar Peg PegToaq PegSpec PegFacts PegToaqFacts Ast AstInd ModFacts
  Action ActionSpec VisitSpec ModSpec ModWords TileSpec.
Import ListNotations.
Open Scope nat_scope.
Open Scope list_scope.
Open Scope res_scope.

(** ** Closing words *)

Fixpoint ctoks (n : node) : list token :=
  match n with
  | NText ld d => olist ctoks ld ++ flat_map ctoks d
  | NDiscourse d => flat_map ctoks d
  | NSentence je st da => olist wctoks je ++ ctoks st ++ olist wctoks da
  | NPrenex ts bi => flat_map ctoks ts ++ wctoks bi
  | NPrenexStmt p st => ctoks p ++ ctoks st
  | NPredication p ts na => ctoks p ++ olist (flat_map ctoks) ts ++ olist wctoks na
  | NPrefixed mu p => wctoks mu ++ ctoks p
  | NSerial l r => ctoks l ++ ctoks r
  | NWordPredicate w => wctoks w
  | NMi mi ga p => wctoks mi ++ ctoks p ++ olist wctoks ga
  | NPo po ga a => wctoks po ++ ctoks a ++ olist wctoks ga
  | NMo mo teo d => wctoks mo ++ flat_map ctoks d ++ wctoks teo
  | NLinked go a => wctoks go ++ ctoks a
  | NTerms ts => flat_map ctoks ts
  | NPredArg f q p rel => olist wctoks f ++ olist wctoks q ++ ctoks p ++ olist ctoks rel
  | NPredRel p => ctoks p
  | NAdverb p => ctoks p
  | NPrep p a => ctoks p ++ ctoks a
  | NPredContent p => ctoks p
  | NParen kio ki d => wctoks kio ++ flat_map ctoks d ++ wctoks ki ++ wtoks ki
  | NIncidental ju st => wctoks ju ++ ctoks st
  | NVocative hu a => wctoks hu ++ ctoks a
  | NInterjection w => wctoks w
  | NSpace w => wctoks w
  | NCoP _ None _ ru l r => ctoks l ++ wctoks ru ++ ctoks r
  | NCoP _ (Some t) to1 ru l r => wctoks t ++ wctoks ru ++ ctoks l ++ olist wctoks to1 ++ ctoks r
  | NLU _ lu st => wctoks lu ++ ctoks st
  | NWord w => wctoks w
  end
with wctoks (w : word) : list token :=
  match w with
  | Wd _ _ _ m => olist ctoks m
  end.

Lemma ctoks_kid k n : In k (kids n) -> incl (ctoks k) (ctoks n).
Proof.
  intros I t T. destruct n; cbn [kids] in I;
    repeat match goal with
    | H : context [maybe ?o] |- _ => is_var o; destruct o; cbn [maybe] in H
    | H : context [maybe_word ?o] |- _ => destruct o; cbn [maybe_word] in H
    | H : context [match ?x with _ => _ end] |- _ => is_var x; destruct x
    end;
    repeat (rewrite ?in_app_iff in I; cbn [In app maybe maybe_word w_m] in I);
    repeat match goal with
    | H : _ \/ _ |- _ => destruct H
    | H : False |- _ => destruct H
    | H : _ = ?x |- _ => is_var x; subst x
    end; cbn [ctoks wctoks olist flat_map] in *; rewrite ?in_app_iff; cbn [In]; try tauto.
  all: try (apply in_flat_map; eauto; fail).
  all: try (rewrite !in_app_iff in T; tauto).
  destruct w as [? ? ? [x|]]; cbn [w_m maybe In wctoks olist] in *; [|contradiction].
  destruct I as [<-|[]]. exact T.
Qed.

Lemma ctoks_below k n : below k n -> incl (ctoks k) (ctoks n).
Proof. induction 1 as [|k' n K _ IH]; [apply incl_refl|]. eapply incl_tran; [exact IH|apply ctoks_kid; exact K]. Qed.

Lemma ki_ctoks n t : ki_of n t -> In t (ctoks n).
Proof.
  intros (kio & ki & d & B & I). apply (ctoks_below _ _ B). cbn [ctoks]. rewrite !in_app_iff. auto.
Qed.

Lemma ki_below k n t : below k n -> ki_of k t -> ki_of n t.
Proof. intros B (kio & ki & d & H & I). exists kio, ki, d. split; [exact (below_trans _ _ _ H B)|exact I]. Qed.

Definition kn (n : node) : Prop := forall t, In t (ctoks n) -> ki_of n t.
Definition kw (w : word) : Prop := forall t, In t (wctoks w) -> ki_of (NWord w) t.

Lemma kn_kid k n t : In k (kids n) -> kn k -> In t (ctoks k) -> ki_of n t.
Proof. intros I H T. exact (ki_below k n t (below_kid _ _ I) (H t T)). Qed.
Lemma kw_kid w n t : In (NWord w) (kids n) -> kw w -> In t (wctoks w) -> ki_of n t.
Proof. intros I H T. exact (ki_below _ n t (below_kid _ _ I) (H t T)). Qed.

Lemma kn_list (d : list node) n t : (forall k, In k d -> below k n) -> Forall kn d -> In t (flat_map ctoks d) -> ki_of n t.
Proof.
  intros B F T. apply in_flat_map in T. destruct T as (k & K & T). rewrite Forall_forall in F.
  exact (ki_below k n t (B k K) (F k K t T)).
Qed.

Ltac kin := cbn [kids maybe maybe_word app In w_m]; rewrite ?in_app_iff; cbn [In]; tauto.

Lemma below_cop x k to0 to1 ru l r : below x (NCoP CRaw to0 to1 ru l r) -> below x (NCoP k to0 to1 ru l r).
Proof. intro B. destruct k; try exact B; (eapply WKid; [left; reflexivity|exact B]). Qed.
Lemma below_lu x k lu st : below x (NLU LRaw lu st) -> below x (NLU k lu st).
Proof. intro B. destruct k; try exact B; (eapply WKid; [left; reflexivity|exact B]). Qed.

Ltac bel := first
  [ apply below_kid; kin
  | apply below_cop; apply below_kid; kin
  | apply below_lu; apply below_kid; kin ].

Lemma ctoks_ki : (forall n, kn n) /\ (forall w, kw w).
Proof.
  apply node_word_ind; intros; intros x T;
    repeat match goal with H : onO _ ?o |- _ => is_var o; destruct o; cbn [onO] in H end;
    cbn [ctoks wctoks olist] in T; rewrite ?in_app_iff in T;
    repeat match goal with H : _ \/ _ |- _ => destruct H | H : In _ [] |- _ => destruct H end;
    try (match goal with
         | H : kn ?k, T : In _ (ctoks ?k) |- _ => refine (ki_below k _ _ _ (H _ T)); bel
         | H : kw ?k, T : In _ (wctoks ?k) |- _ => refine (ki_below (NWord k) _ _ _ (H _ T)); first [bel|constructor]
         | F : Forall kn ?d, T : In _ (flat_map ctoks ?d) |- ki_of ?n _ =>
             refine (kn_list d n _ _ F T); intros j J;
             first [ apply below_kid; exact J
                   | apply (below_kid2 _ (NDiscourse d)); [kin|exact J]
                   | apply (below_kid2 _ (NTerms d)); [kin|exact J] ]
         end).
  exists kio, ki, d. split; [constructor|assumption].
Qed.

(** Attaching a modifier keeps the closing words and adds those of the modifier. *)
Section Mod.
Variable m : node.
Definition adds (a b : list token) : Prop := incl a b /\ incl (ctoks m) b.

Definition mk (n : node) : Prop := forall n', mod_node (Some m) n = Ok n' -> adds (ctoks n) (ctoks n').
Definition mkw (w : word) : Prop := forall w', mod_word (Some m) w = Ok w' -> adds (wctoks w) (wctoks w').

Lemma map_last_adds f d d' : (forall x y, f x = Ok y -> mod_node (Some m) x = Ok y) -> Forall mk d -> map_last f d = Ok d' ->
  adds (flat_map ctoks d) (flat_map ctoks d').
Proof.
  intros F. revert d'. induction d as [|x d IH]; intros d' H E; [discriminate|]. inversion H as [|? ? Hx Hd]; subst.
  cbn [map_last] in E. destruct d as [|y d].
  - apply bind_ok in E. destruct E as (z & Ez & E). injection E as <-. cbn [flat_map]. rewrite !app_nil_r. exact (Hx z (F _ _ Ez)).
  - apply bind_ok in E. destruct E as (z & Ez & E). injection E as <-. destruct (IH z Hd Ez) as [A B].
    change (flat_map ctoks (x :: y :: d)) with (ctoks x ++ flat_map ctoks (y :: d)).
    change (flat_map ctoks (x :: z)) with (ctoks x ++ flat_map ctoks z). split.
    + apply incl_app; [apply incl_appl, incl_refl|apply incl_appr; exact A].
    + apply incl_appr. exact B.
Qed.

Lemma discourse_adds d d' : Forall mk d -> discourse_mod (mod_node (Some m)) d = Ok d' -> adds (flat_map ctoks d) (flat_map ctoks d').
Proof. intros H. apply map_last_adds; [|exact H]. intros x y. destruct (_ || _)%bool; [auto|discriminate]. Qed.

Lemma terms_adds d d' : Forall mk d -> terms_mod (Some m) (mod_node (Some m)) d = Ok d' -> adds (flat_map ctoks d) (flat_map ctoks d').
Proof. intros H. apply map_last_adds; auto. Qed.

Lemma mod_adds : (forall n, mk n) /\ (forall w, mkw w).
Proof.
  apply node_word_ind; intros; intros n' E; (first [rewrite mod_node_eq in E|rewrite mod_word_eq in E]);
    repeat match type of E with context [match ?x with Some _ => _ | None => _ end] => is_var x; destruct x; cbn [onO] in * end;
    try (apply bind_ok in E; destruct E as (x & Ex & E); injection E as <-);
    try (match goal with
         | H : mk ?k, Ex : mod_node _ ?k = Ok ?x |- _ => apply H in Ex
         | H : mkw ?k, Ex : mod_word _ ?k = Ok ?x |- _ => apply H in Ex
         | H : Forall mk ?d, Ex : discourse_mod _ ?d = Ok ?x |- _ => apply (discourse_adds _ _ H) in Ex
         | H : Forall mk ?d, Ex : terms_mod _ _ ?d = Ok ?x |- _ => apply (terms_adds _ _ H) in Ex
         end;
         try match goal with |- adds (ctoks (NCoP _ ?o _ _ _ _)) _ => destruct o end;
         destruct Ex as [E1 E2]; split; intros y Y; cbn [ctoks wctoks olist] in *; rewrite ?in_app_iff in *;
         pose proof (E1 y); pose proof (E2 y); tauto).
  injection E as <-. cbn [wctoks olist]. split; [intros y []|apply incl_refl].
Qed.
End Mod.

(** ** Visiting order and source order *)

(** [shuffled c a b]: [b] has the elements of [a], those not in [c] in the same order. *)
Definition shuffled (c a b : list token) : Prop :=
  Permutation a b /\ forall f : token -> bool, (forall t, In t c -> f t = false) -> filter f a = filter f b.

Lemma shuffled_refl c a : shuffled c a a.
Proof. split; [apply Permutation_refl|reflexivity]. Qed.

Lemma shuffled_incl c c' a b : incl c c' -> shuffled c a b -> shuffled c' a b.
Proof. intros I [P F]. split; [exact P|]. intros f H. apply F. intros t T. apply H, I, T. Qed.

Lemma shuffled_app c c1 c2 a1 a2 b1 b2 : shuffled c1 a1 b1 -> shuffled c2 a2 b2 -> incl c1 c -> incl c2 c ->
  shuffled c (a1 ++ a2) (b1 ++ b2).
Proof.
  intros [P1 F1] [P2 F2] I1 I2. split; [apply Permutation_app; assumption|]. intros f H. rewrite !filter_app.
  rewrite (F1 f (fun t T => H t (I1 t T))), (F2 f (fun t T => H t (I2 t T))). reflexivity.
Qed.

Lemma filter_none (f : token -> bool) l : (forall t, In t l -> f t = false) -> filter f l = [].
Proof.
  induction l as [|x l IH]; intro H; [reflexivity|]. cbn [filter]. rewrite (H x (or_introl eq_refl)). apply IH.
  intros t T. apply H. right. exact T.
Qed.

Lemma shuffled_insert c cn cm l1 l2 am bn bm : shuffled cn (l1 ++ l2) bn -> shuffled cm am bm ->
  incl cn c -> incl cm c -> incl l2 c -> shuffled c (l1 ++ am ++ l2) (bn ++ bm).
Proof.
  intros [P1 F1] [P2 F2] I1 I2 I3. split.
  - eapply Permutation_trans; [|apply Permutation_app; eassumption]. rewrite <- app_assoc. apply Permutation_app_head.
    apply Permutation_app_comm.
  - intros f H. specialize (F1 f (fun t T => H t (I1 t T))). specialize (F2 f (fun t T => H t (I2 t T))).
    rewrite !filter_app in *. rewrite (filter_none f l2) in * by auto. rewrite app_nil_r in *. rewrite F1, F2. reflexivity.
Qed.

Lemma tiles_app i l1 q l2 j : tiles i l1 q -> tiles q l2 j -> tiles i (l1 ++ l2) j.
Proof.
  revert i. induction l1 as [|t l1 IH]; cbn [tiles app]; intros i H1 H2; [subst; exact H2|].
  destruct H1 as (? & ? & ?). auto.
Qed.

(** ** The words of a value *)

Definition vtoks (v : val) : list token :=
  match v with
  | VWord w => wtoks w
  | VNode n => toks n
  | VBar ru r => wtoks ru ++ toks r
  | VForeBar to r => wtoks to ++ toks r
  | VFore to l r => toks l ++ wtoks to ++ toks r
  | VConn to ru => wtoks to ++ wtoks ru
  | VMo w d | VParen w d => wtoks w ++ toks (NDiscourse d)
  | _ => []
  end.

Definition vclose (v : val) : list token :=
  match v with
  | VWord w => wctoks w
  | VNode n => ctoks n
  | VBar ru r => wctoks ru ++ ctoks r
  | VForeBar to r => wctoks to ++ ctoks r
  | VFore to l r => ctoks l ++ wctoks to ++ ctoks r
  | VConn to ru => wctoks to ++ wctoks ru
  | VMo w d | VParen w d => wctoks w ++ ctoks (NDiscourse d)
  | _ => []
  end.

Fixpoint span (v : val) (i : nat) (l : list token) (j : nat) : Prop :=
  match v with
  | VStr _ | VUnit => l = []
  | VOpt None => i = j /\ l = []
  | VOpt (Some v) => span v i l j
  | _ => shuffled (vclose v) (vtoks v) l /\ tiles i l j
  end.

Fixpoint covers (vs : list val) (i : nat) (l : list token) (j : nat) : Prop :=
  match vs with
  | [] => i = j /\ l = []
  | v :: vs' => exists l1 l2 q, l = l1 ++ l2 /\ span v i l1 q /\ covers vs' q l2 j
  end.

Lemma covers_inv v vs i l j : covers (v :: vs) i l j -> exists l1 l2 q, l = l1 ++ l2 /\ span v i l1 q /\ covers vs q l2 j.
Proof. intro H. exact H. Qed.

Lemma covers_app a b i l1 q l2 j : covers a i l1 q -> covers b q l2 j -> covers (a ++ b) i (l1 ++ l2) j.
Proof.
  revert i l1. induction a as [|v a IH]; cbn [covers app]; intros i l1 H1 H2.
  - destruct H1 as [-> ->]. exact H2.
  - destruct H1 as (k1 & k2 & p & -> & S & C). exists k1, (k2 ++ l2), p. rewrite <- app_assoc. auto.
Qed.

(** Attaching a modifier. *)
Lemma nmod_span s n n' i l1 q l2 j : nmod s n = Ok n' -> span (VNode n) i l1 q -> span (VOpt s) q l2 j ->
  span (VNode n') i (l1 ++ l2) j.
Proof.
  intros E [S1 T1] S2. destruct s as [v|].
  - destruct v as [| |m| | | | | | | |]; try discriminate E. cbn [nmod] in E. cbn [span vtoks vclose] in *. destruct S2 as [S2 T2].
    split; [|exact (tiles_app _ _ _ _ _ T1 T2)].
    destruct (proj1 (mod_inserts m) n n' E) as (a & b & E1 & E2 & C). fold (toks n) in E1. fold (toks n') in E2.
    rewrite E1 in S1. rewrite E2. destruct (proj1 (mod_adds m) n n' E) as [I1 I2].
    refine (shuffled_insert _ _ _ _ _ _ _ _ S1 S2 I1 I2 _).
    intros t T. apply I1. apply ki_ctoks. unfold closing in C. rewrite Forall_forall in C. exact (C t T).
  - cbn [nmod] in E. apply (proj1 mod_none) in E. subst n'. destruct S2 as [<- ->]. rewrite app_nil_r. split; assumption.
Qed.

Lemma wmod_span s n n' i l1 q l2 j : wmod s n = Ok n' -> span (VWord n) i l1 q -> span (VOpt s) q l2 j ->
  span (VWord n') i (l1 ++ l2) j.
Proof.
  intros E [S1 T1] S2. destruct s as [v|].
  - destruct v as [| |m| | | | | | | |]; try discriminate E. cbn [wmod] in E. cbn [span vtoks vclose] in *. destruct S2 as [S2 T2].
    split; [|exact (tiles_app _ _ _ _ _ T1 T2)].
    destruct (proj2 (mod_inserts m) n n' E) as (a & b & E1 & E2 & C). fold (wtoks n) in E1. fold (wtoks n') in E2.
    rewrite E1 in S1. rewrite E2. destruct (proj2 (mod_adds m) n n' E) as [I1 I2].
    refine (shuffled_insert _ _ _ _ _ _ _ _ S1 S2 I1 I2 _).
    intros t T. apply I1. change (In t (ctoks (NWord n))). apply ki_ctoks. unfold closing in C. rewrite Forall_forall in C. exact (C t T).
  - cbn [wmod] in E. rewrite (proj2 mod_none) in E. injection E as <-. destruct S2 as [<- ->]. rewrite app_nil_r. split; assumption.
Qed.

(** ** Actions *)

Definition seg (c a : list token) (i : nat) (l : list token) (j : nat) : Prop := shuffled c a l /\ tiles i l j.

Lemma seg_app c c1 c2 a1 a2 i l1 q l2 j : seg c1 a1 i l1 q -> seg c2 a2 q l2 j -> incl c1 c -> incl c2 c ->
  seg c (a1 ++ a2) i (l1 ++ l2) j.
Proof. intros [S1 T1] [S2 T2] I1 I2. split; [eapply shuffled_app; eassumption|eapply tiles_app; eassumption]. Qed.

Lemma seg_incl c c' a i l j : seg c a i l j -> incl c c' -> seg c' a i l j.
Proof. intros [S T] I. split; [eapply shuffled_incl; eassumption|exact T]. Qed.

Lemma seg_cat c1 c2 a1 a2 i l1 q l2 j : seg c1 a1 i l1 q -> seg c2 a2 q l2 j -> seg (c1 ++ c2) (a1 ++ a2) i (l1 ++ l2) j.
Proof. intros. eapply seg_app; try eassumption; [apply incl_appl|apply incl_appr]; apply incl_refl. Qed.

Lemma seg_nil i : seg [] [] i [] i.
Proof. split; [apply shuffled_refl|reflexivity]. Qed.

Lemma opt_word_seg o o' q l j : opt_word o = Ok o' -> span (VOpt o) q l j -> seg (olist wctoks o') (olist wtoks o') q l j.
Proof.
  destruct o as [v|]; cbn [opt_word].
  - destruct v; try discriminate. intro E. injection E as <-. auto.
  - intro E. injection E as <-. intros [<- ->]. apply seg_nil.
Qed.

Lemma opt_node_seg o o' q l j : opt_node o = Ok o' -> span (VOpt o) q l j -> seg (olist ctoks o') (olist toks o') q l j.
Proof.
  destruct o as [v|]; cbn [opt_node].
  - destruct v; try discriminate. intro E. injection E as <-. auto.
  - intro E. injection E as <-. intros [<- ->]. apply seg_nil.
Qed.

(** The parts a node must not have yet when an action sets them. *)
Inductive kind : Type := KNo | KPredn | KSent | KArg | KRel | KQuant | KMi | KPo.

Definition kfit (k : kind) (v : val) : Prop :=
  match k, v with
  | KPredn, VNode (NPredication _ _ na) => na = None
  | KSent, VNode (NSentence je _ _) => je = None
  | KArg, VNode (NPredArg f q _ rel) => f = None /\ q = None /\ rel = None
  | KRel, VNode (NPredArg f q _ _) => f = None /\ q = None
  | KQuant, VNode (NPredArg f _ _ _) => f = None
  | KMi, VNode (NMi _ ga _) => ga = None
  | KPo, VNode (NPo _ ga _) => ga = None
  | _, _ => True
  end.

(** What an action gives and what it needs of its arguments. *)
Definition out_kind (a : act) : kind :=
  match a with
  | APredication => KPredn | ASentence => KSent | AArg => KArg | AArgRel => KRel | AQuant => KQuant
  | AMi => KMi | APo => KPo | _ => KNo
  end.
Definition needs (a : act) : list kind :=
  match a with
  | AEndPredication | APredRel | APredContent => [KPredn; KNo; KNo]
  | AJE => [KNo; KSent]
  | AFocus => [KNo; KQuant]
  | AQuant => [KNo; KRel]
  | AArgRel => [KArg; KNo; KNo]
  | AMiEnd => [KMi; KNo; KNo]
  | APoEnd => [KPo; KNo; KNo]
  | _ => []
  end.

Fixpoint kfits (ks : list kind) (vs : list val) : Prop :=
  match ks, vs with
  | k :: ks', v :: vs' => kfit k v /\ kfits ks' vs'
  | _, _ => True
  end.

Definition came (n n' : node) : Prop :=
  match n' with
  | NPredication _ _ na => exists p ts na0, n = NPredication p ts na0 /\ (na0 = None -> na = None)
  | NPredArg f q _ rel => exists p rel0, n = NPredArg f q p rel0 /\ (rel0 = None -> rel = None)
  | _ => True
  end.

Lemma nmod_shape s n n' : nmod s n = Ok n' -> came n n'.
Proof.
  assert (K : forall o, mod_node o n = Ok n' -> came n n').
  { intros o E. rewrite mod_node_eq in E. destruct n;
      repeat match type of E with context [match ?x with Some _ => _ | None => _ end] => is_var x; destruct x end;
      apply bind_ok in E; destruct E as (x & _ & E); injection E as <-; cbn [came]; try exact I; repeat eexists; try reflexivity; discriminate. }
  destruct s as [[]|]; try discriminate; cbn [nmod]; apply K.
Qed.

Ltac inva E := cbn [run_act ill_typed bind] in E;
  repeat match type of E with
  | context [match ?x with _ => _ end] => is_var x; destruct x; try discriminate E
  | bind _ _ = Ok _ => apply bind_ok in E; let y := fresh "y" in let Ey := fresh "Ey" in destruct E as (y & Ey & E)
  | end_predication _ _ _ = Ok _ => unfold end_predication in E
  | ill_typed = Ok _ => discriminate E
  | Ok _ = Ok _ => injection E as <-
  end.

Lemma act_kind a i j vs v : run_act a i j vs = Ok v -> kfits (needs a) vs -> kfit (out_kind a) v.
Proof.
  intros E K. destruct a; try exact I; inva E; cbn [out_kind kfit needs kfits] in *; try reflexivity; try tauto.
  all: match goal with H : nmod _ _ = Ok _ |- _ => apply nmod_shape in H end;
    destruct Ey as (? & ? & -> & ?); tauto.
Qed.

Definition wordy (a : act) : bool :=
  match a with AWord | AInterjection | AWordPredicate | ASpace => true | _ => false end.

Ltac uncover :=
  repeat match goal with
  | H : covers (_ :: _) _ _ _ |- _ =>
      let l1 := fresh "l" in let l2 := fresh "l" in let q := fresh "q" in let S := fresh "S" in
      apply covers_inv in H; destruct H as (l1 & l2 & q & -> & S & H)
  | H : covers [] _ _ _ |- _ => destruct H as [<- ->]
  | H : _ = _ /\ _ = [] |- _ => destruct H as [<- ->]
  | Ey : nmod ?s ?n = Ok ?y, S1 : span (VNode ?n) ?i ?l1 ?q, S2 : span (VOpt ?s) ?q ?l2 ?j |- _ =>
      let S := fresh "S" in pose proof (nmod_span s n y i l1 q l2 j Ey S1 S2) as S; clear S1 S2
  | Ey : wmod ?s ?n = Ok ?y, S1 : span (VWord ?n) ?i ?l1 ?q, S2 : span (VOpt ?s) ?q ?l2 ?j |- _ =>
      let S := fresh "S" in pose proof (wmod_span s n y i l1 q l2 j Ey S1 S2) as S; clear S1 S2
  | Ey : opt_word ?s = Ok ?y, S2 : span (VOpt ?s) ?q ?l2 ?j |- _ =>
      apply (opt_word_seg s y q l2 j Ey) in S2
  | Ey : opt_node ?s = Ok ?y, S2 : span (VOpt ?s) ?q ?l2 ?j |- _ =>
      apply (opt_node_seg s y q l2 j Ey) in S2
  end.

Lemma nmod_pre cx c x s n n' i l1 q l2 j : incl c (cx ++ ctoks n) ->
  nmod s n = Ok n' -> seg c (x ++ toks n) i l1 q -> span (VOpt s) q l2 j ->
  seg (cx ++ ctoks n') (x ++ toks n') i (l1 ++ l2) j.
Proof.
  intros I E [S1 T1] S2. destruct s as [v|].
  - destruct v as [| |m| | | | | | | |]; try discriminate E. cbn [nmod] in E. cbn [span vtoks vclose] in *. destruct S2 as [S2 T2].
    split; [|exact (tiles_app _ _ _ _ _ T1 T2)].
    destruct (proj1 (mod_inserts m) n n' E) as (a & b & E1 & E2 & C). fold (toks n) in E1. fold (toks n') in E2.
    rewrite E1, app_assoc in S1. rewrite E2, app_assoc. destruct (proj1 (mod_adds m) n n' E) as [I1 I2].
    refine (shuffled_insert _ _ _ _ _ _ _ _ S1 S2 _ _ _); [|apply incl_appr; exact I2|].
    + intros t T. apply I in T. rewrite in_app_iff in *. pose proof (I1 t). tauto.
    + intros t T. apply in_or_app. right. apply I1. apply ki_ctoks. unfold closing in C. rewrite Forall_forall in C. exact (C t T).
  - cbn [nmod] in E. apply (proj1 mod_none) in E. subst n'. destruct S2 as [<- ->]. rewrite app_nil_r.
    apply (seg_incl c); [split; assumption|exact I].
Qed.

Lemma wmod_pre cx c x s n n' i l1 q l2 j : incl c (cx ++ wctoks n) ->
  wmod s n = Ok n' -> seg c (x ++ wtoks n) i l1 q -> span (VOpt s) q l2 j ->
  seg (cx ++ wctoks n') (x ++ wtoks n') i (l1 ++ l2) j.
Proof.
  intros I E H S2. change (wctoks n') with (ctoks (NWord n')). change (wtoks n') with (toks (NWord n')).
  refine (nmod_pre cx c x s (NWord n) (NWord n') i l1 q l2 j I _ H S2).
  destruct s as [[]|]; try discriminate E; cbn [nmod wmod] in *; rewrite mod_node_eq, E; reflexivity.
Qed.

Lemma seg_app_eq c c1 a a1 a2 i l l1 q l2 j : seg c1 a1 i l1 q -> a = a1 ++ a2 -> l = l1 ++ l2 -> seg c a2 q l2 j ->
  incl c1 c -> seg c a i l j.
Proof. intros H1 -> -> H2 I1. eapply seg_app; try eassumption. apply incl_refl. Qed.

Lemma seg_eq c c1 a a1 i l l1 j : seg c1 a1 i l1 j -> a = a1 -> l = l1 -> incl c1 c -> seg c a i l j.
Proof. intros H -> -> I. eapply seg_incl; eassumption. Qed.

Ltac inc := let t := fresh "t" in let T := fresh "T" in
  intros t T; cbn [ctoks wctoks olist flat_map vclose] in *; rewrite ?in_app_iff in *; cbn [In] in *; tauto.

Ltac assoc := rewrite <- ?app_assoc; rewrite ?app_nil_r; reflexivity.

(** What is left of the concatenation [a] after [b]. *)
Ltac rest a b :=
  lazymatch b with
  | ?x ++ ?y => let r := rest a x in rest r y
  | [] => a
  | _ => lazymatch a with
         | b ++ ?r => r
         | b => constr:(@nil token)
         end
  end.

Ltac fin :=
  first [ match goal with
          | H : seg ?c1 ?a1 ?i ?l1 ?q |- seg _ ?a ?i ?l ?q =>
              refine (seg_eq _ c1 a a1 i l l1 q H _ _ _); [assoc|assoc|inc]
          end
        | match goal with
          | H : seg ?c1 ?a1 ?i ?l1 ?q |- seg _ ?a ?i ?l ?j =>
              let a2 := rest a a1 in let l2 := rest l l1 in
              refine (seg_app_eq _ c1 a a1 a2 i l l1 q l2 j H _ _ _ _); [assoc|assoc|fin|inc]
          end ].

Ltac close :=
  cbn [span] in *;
  repeat match goal with H : shuffled ?c ?a ?l /\ tiles ?i ?l ?j |- _ => change (seg c a i l j) in H end;
  try match goal with |- shuffled ?c ?a ?l /\ tiles ?i ?l ?j => change (seg c a i l j) end;
  cbn [vtoks vclose] in *; unfold toks, wtoks in *;
  cbn [words olist flat_map] in *; rewrite ?map_app, ?app_nil_r in *; rewrite <- ?app_assoc in *; cbn [map app] in *; rewrite ?app_nil_r in *.

Ltac opts :=
  repeat match goal with y : option node |- _ => destruct y | y : option word |- _ => destruct y end; close;
  repeat match goal with H : _ = _ /\ _ = [] |- _ => destruct H as [<- ->] end; rewrite ?app_nil_r; fin.

Lemma end_predication_span p s na y i l0 q l1 q1 l2 j : end_predication p s na = Ok y -> kfit KPredn (VNode p) ->
  span (VNode p) i l0 q -> span (VOpt s) q l1 q1 -> span (VOpt na) q1 l2 j -> span (VNode y) i (l0 ++ l1 ++ l2) j.
Proof.
  intros E K S1 S2 S3. unfold end_predication in E. inva E. pose proof (nmod_shape _ _ _ Ey) as (? & ? & ? & -> & Z).
  cbn [kfit] in K. specialize (Z K). subst. uncover. opts.
Qed.

Lemma act_span a i j vs v l : run_act a i j vs = Ok v -> kfits (needs a) vs -> wordy a = false -> a <> AWordSpace ->
  covers vs i l j -> span v i l j.
Proof.
  intros E K W N C. destruct a; try discriminate W; try congruence; inva E; cbn [needs kfits] in K; uncover; rewrite ?app_nil_r; try exact S.
  all: try (close; fin; fail).
  all: try (opts; fail).
  all: try (cbn [span] in *; subst; reflexivity).
  - destruct K as (_ & K & _). cbn [kfit] in K. subst je. opts.
  - exact (end_predication_span _ _ _ _ _ _ _ _ _ _ _ Ey (proj1 K) S S0 S1).
  - destruct K as (_ & K & _). cbn [kfit] in K. subst focus. opts.
  - destruct K as (_ & K & _). cbn [kfit] in K. destruct K as [-> ->]. opts.
  - pose proof (nmod_shape _ _ _ Ey) as (? & ? & -> & Z). destruct K as (K & _). cbn [kfit] in K. destruct K as (-> & -> & K).
    specialize (Z K). subst. opts.
  - exact (end_predication_span _ _ _ _ _ _ _ _ _ _ _ Ey (proj1 K) S S0 S1).
  - exact (end_predication_span _ _ _ _ _ _ _ _ _ _ _ Ey (proj1 K) S S0 S1).
  - close. pose proof (wmod_pre (wctoks to0) _ _ _ _ _ _ _ _ _ _ (incl_refl _) Ey S S0) as S2. clear S S0. close. fin.
  - destruct K as (K & _). cbn [kfit] in K. subst ga. close. change (map tok (words n)) with (toks n) in S.
    assert (I : incl (ctoks (NMi mi None n)) (wctoks mi ++ ctoks n)) by inc.
    pose proof (nmod_pre _ _ _ _ _ _ _ _ _ _ _ I Ey S S0) as S2. clear S S0. opts.
  - destruct K as (K & _). cbn [kfit] in K. subst ga. close. change (map tok (words n)) with (toks n) in S.
    assert (I : incl (ctoks (NPo po None n)) (wctoks po ++ ctoks n)) by inc.
    pose proof (nmod_pre _ _ _ _ _ _ _ _ _ _ _ I Ey S S0) as S2. clear S S0. opts.
  - cbn [span vtoks vclose] in S. pose proof (nmod_pre (wctoks mo) _ _ _ _ _ _ _ _ _ _ (incl_refl _) Ey S S0) as S2. clear S S0. close. fin.
  - cbn [span vtoks vclose] in S. pose proof (nmod_pre (wctoks kio) _ _ _ _ _ _ _ _ _ _ (incl_refl _) Ey S S0) as S2. clear S S0. close. fin.
Qed.
