(** Arguments of a parsed text start at different places. *)

From Coq Require Import String NArith List Bool Permutation Lia.
From Verif Require Import Base PegSyntax Tone Ast AstInd AstSorts Parser Visit VisitSpec VisitFacts SpanSpec AstApi SpanFacts TileSpec TileApi SortApi ParserSpec.
Import ListNotations.
Open Scope nat_scope.
Open Scope list_scope.

Definition start_of (n : node) : list nat := match node_start n with Ok k => [k] | _ => [] end.
Definition arg_key (o : option node) : list nat := match o with Some (NPredArg _ _ p _) => start_of p | _ => [] end.
Definition keys (l : list (option node)) : list nat := flat_map arg_key l.
Definition starts_in (n : node) : list nat := map w_s (words n).
Definition all_starts (d : list node) : list nat := map w_s (flat_map words d).

(** No argument is an initial part. *)
Definition led (n : node) : Prop := forall f q p rel, ~ initial (NPredArg f q p rel) n.
Definition fine (n : node) : Prop :=
  forall f q p rel, below (NPredArg f q p rel) n -> led p /\ exists k, node_start p = Ok k.

Lemma words_kids n : words n = (match n with NWord w => [w] | _ => [] end) ++ flat_map words (kids n).
Proof.
  assert (R : reads n (words n)) by (apply reads_spec; reflexivity).
  assert (A : forall ks l, reads_all ks l -> l = flat_map words ks).
  { induction ks as [|k ks IH]; intros l H; inversion H; subst; [reflexivity|]. cbn [flat_map]. rewrite (IH _ H4). f_equal. apply reads_spec. exact H2. }
  revert R. generalize (words n) at 1 2. intros l R. destruct R as [w l H|m l N H].
  - rewrite (A _ _ H). reflexivity.
  - rewrite (A _ _ H). destruct m; try reflexivity. contradiction (N w). reflexivity.
Qed.

(** The list [a] is [b] and some more. *)
Definition covers (a b : list nat) : Prop := exists r, Permutation a (b ++ r).

Lemma covers_app a b c d : covers a b -> covers c d -> covers (a ++ c) (b ++ d).
Proof.
  intros (r & P) (s & Q). exists (r ++ s). rewrite P, Q. rewrite <- !app_assoc. apply Permutation_app_head.
  rewrite !app_assoc. apply Permutation_app_tail. apply Permutation_app_comm.
Qed.
Lemma covers_perm a b c : Permutation b c -> covers a b -> covers a c.
Proof. intros P (r & Q). exists r. rewrite Q. apply Permutation_app_tail. exact P. Qed.

Lemma first_part n k l : parts n = k :: l -> node_start n = node_start k \/ exists ld d, n = NText ld d.
Proof.
  destruct n; cbn [parts kids maybe maybe_word app]; intro H; try discriminate; try (injection H as <- _); try (left; reflexivity).
  all: try (right; eauto; fail).
  all: repeat match goal with o : option _ |- _ => destruct o | c : copkind |- _ => destruct c | c : lukind |- _ => destruct c end.
  all: try match goal with H : ?d = _ :: _ |- _ => is_var d; destruct d end.
  all: cbn [maybe maybe_word app] in H; try discriminate; injection H as <- _; left; reflexivity.
Qed.

Lemma keys_app a b : keys (a ++ b) = keys a ++ keys b.
Proof. apply flat_map_app. Qed.

Lemma shown_covers :
  (forall n l, shown n l -> fine n ->
     covers (starts_in n) (keys l) /\
     (forall k, led n -> node_start n = Ok k -> covers (starts_in n) (k :: keys l))) /\
  (forall ns l, shown_all ns l -> (forall n, In n ns -> fine n) ->
     covers (all_starts ns) (keys l) /\
     (forall n k, In n ns -> led n -> node_start n = Ok k -> covers (all_starts ns) (k :: keys l))).
Proof.
  apply shown_mut.
  - intros n l _ IH F.
    assert (Fk : forall m, In m (kids n) -> fine m) by (intros m M f q p rel B; apply (F f q p rel); exact (WKid _ m n M B)).
    destruct (IH Fk) as [IH1 IH2]. clear IH.
    assert (K : keys (Some n :: l ++ [None]) = arg_key (Some n) ++ keys l).
    { change (Some n :: l ++ [None]) with ([Some n] ++ (l ++ [None])). rewrite !keys_app. unfold keys at 1 3. cbn [flat_map arg_key]. rewrite !app_nil_r. reflexivity. }
    rewrite K.
    assert (W : starts_in n = (match n with NWord w => [w_s w] | _ => [] end) ++ all_starts (kids n)).
    { unfold starts_in, all_starts. rewrite words_kids, map_app. destruct n; reflexivity. }
    rewrite W.
    destruct (match n with NPredArg _ _ _ _ => true | _ => false end) eqn:Ea.
    + destruct n as [| | | | | | | | | | | | | |f q n rel| | | | | | | | | | | |]; try discriminate Ea. cbn [app]. destruct (F f q n rel (WSelf _)) as [Lp (k & Sk)].
      assert (In n (kids (NPredArg f q n rel))) by (cbn [kids]; rewrite !in_app_iff; cbn [In]; auto).
      pose proof (IH2 n k H Lp Sk) as C. cbn [arg_key]. unfold start_of. rewrite Sk. split; [exact C|].
      intros k' L'. contradiction (L' f q n rel). constructor.
    + replace (arg_key (Some n)) with (@nil nat) by (destruct n; try reflexivity; discriminate Ea). cbn [app].
      destruct (match n with NWord _ => true | _ => false end) eqn:Ew.
      * destruct n; try discriminate Ew. cbn [app]. split.
        -- destruct IH1 as (r & P). exists (w_s w :: r). rewrite P. apply Permutation_middle.
        -- intros k L S. assert (k = w_s w) by (destruct w; unfold node_start, word_start in S; injection S as <-; reflexivity). subst k. destruct IH1 as (r & P). exists r. cbn [app]. rewrite P. reflexivity.
      * replace (match n with NWord w => [w_s w] | _ => [] end) with (@nil nat) by (destruct n; try reflexivity; discriminate Ew).
        cbn [app]. split; [exact IH1|]. intros k L S.
        destruct (parts n) as [|m ps] eqn:Ep.
        -- exfalso. destruct n; cbn [parts kids] in Ep; try discriminate Ep; try discriminate Ew.
           all: repeat match goal with o : option _ |- _ => destruct o | c : copkind |- _ => destruct c | c : lukind |- _ => destruct c end.
           all: cbn [maybe maybe_word app] in Ep; try discriminate Ep; subst; discriminate S.
        -- assert (T : (exists ld d, n = NText ld d) \/ (node_start n = node_start m /\ kids n = parts n)).
           { destruct (first_part n m ps Ep) as [E|T]; [|left; exact T]. destruct n; try discriminate Ew; try (left; eauto; fail); right; split; try exact E; reflexivity. }
           destruct T as [(ld & d & ->)|[E Ek]]; [|].
           ++ cbn [parts] in Ep. injection Ep as <- <-. apply (IH2 (NDiscourse d) k); [cbn [kids]; apply in_or_app; right; left; reflexivity| |exact S].
              intros f q p rel I. apply (L f q p rel). exact (IFirst _ (NDiscourse d) (NText ld d) [] eq_refl I).
           ++ assert (Lm : led m) by (intros f q p rel I; apply (L f q p rel); exact (IFirst _ m n ps Ep I)).
              apply (IH2 m k); [|exact Lm|congruence]. rewrite Ek, Ep. left. reflexivity.
  - intros _. split; [exists []; reflexivity|intros n k []].
  - intros n ns a b _ IHn _ IHs F.
    destruct (IHn (F n (or_introl eq_refl))) as [A1 A2]. destruct (IHs (fun m M => F m (or_intror M))) as [B1 B2].
    assert (E : all_starts (n :: ns) = starts_in n ++ all_starts ns) by (unfold all_starts; cbn [flat_map]; apply map_app).
    rewrite E, keys_app. split; [exact (covers_app _ _ _ _ A1 B1)|].
    intros m k [<-|M] L S.
    + exact (covers_app _ _ _ _ (A2 k L S) B1).
    + apply (covers_perm _ (keys a ++ k :: keys b)); [symmetry; apply Permutation_middle|]. exact (covers_app _ _ _ _ A1 (B2 m k M L S)).
Qed.

(** ** Sorted trees *)

Notation sorted := (AstSorts.sorted real_left real_right).

(** What a predicate can begin with. *)
Definition leading (n : node) : Prop :=
  (among (SPredication :: predicates) n && sorted n)%bool = true \/ (exists w, n = NWord w) \/
  (exists c to0 to1 ru l r, n = NCoP CRaw to0 to1 ru l r /\ (c = CPredicate \/ c = CContent) /\ sorted (NCoP c to0 to1 ru l r) = true) \/
  (exists lu st, n = NLU LRaw lu st).

Lemma leading_part n k l : leading n -> parts n = k :: l -> leading k.
Proof.
  intros [H|[(w & ->)|[(c & to0 & to1 & ru & x & y & -> & C & S)|(lu & st & ->)]]] P.
  - apply andb_true_iff in H. destruct H as [A S]. assert (S' := S). destruct n; try discriminate A; cbn [parts kids maybe maybe_word app] in P.
    all: try (injection P as <- _; right; left; eauto; fail).
    all: cbn [AstSorts.sorted] in S; repeat match goal with
      | H : (_ && _)%bool = true |- _ =>
          lazymatch type of H with (among _ _ && _)%bool = true => fail | _ => apply andb_true_iff in H; destruct H end end.
    + injection P as <- _. left. apply andb_true_iff in H. destruct H as [H ->]. rewrite andb_true_r. unfold among in *. cbn [existsb]. rewrite H. apply orb_true_r.
    + injection P as <- _. left. apply andb_true_iff in H. destruct H as [H ->]. rewrite andb_true_r. unfold among in *. cbn [existsb]. rewrite H. apply orb_true_r.
    + injection P as <- _. left. apply andb_true_iff in S. destruct S as [H ->]. rewrite andb_true_r. unfold among in *. cbn [existsb] in *. rewrite orb_false_r in H. rewrite H. reflexivity.
    + assert (C : k0 = CPredicate \/ k0 = CContent) by (destruct k0; try discriminate A; auto).
      assert (E : k = NCoP CRaw to0 to1 ru n1 n2) by (destruct C; subst k0; injection P as <- _; reflexivity).
      right. right. left. exists k0, to0, to1, ru, n1, n2. split; [exact E|]. split; [exact C|exact S'].
    + assert (E : k = NLU LRaw lu n) by (destruct k0; try discriminate A; injection P as <- _; reflexivity).
      do 3 right. eauto.
  - discriminate P.
  - cbn [parts kids] in P. destruct to0; [injection P as <- _; right; left; eauto|]. injection P as <- _.
    left. cbn [AstSorts.sorted] in S. cbn [is_some] in S.
    repeat match goal with
      | H : (_ && _)%bool = true |- _ =>
          lazymatch type of H with (among _ _ && _)%bool = true => fail | _ => apply andb_true_iff in H; destruct H end end.
    match goal with H : (among (real_left c false) x && _)%bool = true |- _ => rename H into Hx end.
    apply andb_true_iff in Hx. destruct Hx as [Hx Hs].
    apply andb_true_iff. split; [|exact Hs].
    destruct C; subst c; cbn [real_left own] in Hx; unfold among, predicates, contents in *; cbn [existsb app] in *;
      repeat (apply orb_true_iff in Hx; destruct Hx as [Hx|Hx]; [rewrite Hx, ?orb_true_r; reflexivity|]); discriminate Hx.
  - injection P as <- _. right. left. eauto.
Qed.

Lemma leading_led n : leading n -> led n.
Proof.
  intros H f q p rel I. remember (NPredArg f q p rel) as m eqn:E.
  induction I as [|k n l P _ IH].
  - subst m. destruct H as [H|[(w & H)|[(c & to0 & to1 & ru & x & y & H & _)|(lu & st & H)]]]; try discriminate H.
  - exact (IH (leading_part n k l H P)).
Qed.

Lemma below_inside m n : nearly_sorted n = true -> below m n -> inside m.
Proof.
  intros S B. destruct (inside_below m n B (or_introl S)) as [->|[I _]]; [left; exact S|exact I].
Qed.

Lemma sorted_fine n : nearly_sorted n = true -> fine n.
Proof.
  intros S f q p rel B.
  destruct (below_inside _ _ S B) as [H|[H|[H|[(w & H & _)|[(c & to0 & to1 & ru & x & y & H & _)|(k & lu & st & H & _)]]]]]; try discriminate H.
  cbn [AstSorts.sorted] in H.
  repeat match goal with
      | H : (_ && _)%bool = true |- _ =>
          lazymatch type of H with (among _ _ && _)%bool = true => fail | _ => apply andb_true_iff in H; destruct H end end.
  match goal with H : (among predicates p && _)%bool = true |- _ => rename H into Hp end.
  split.
  - apply leading_led. left. apply andb_true_iff in Hp. destruct Hp as [Hp ->]. rewrite andb_true_r. unfold among in *. cbn [existsb]. rewrite Hp. apply orb_true_r.
  - exact (start_is predicates p eq_refl (sorted_start p) Hp).
Qed.

Lemma tiles_nodup l : forall i j, tiles i l j -> NoDup (map t_s l) /\ Forall (fun k => i <= k) (map t_s l).
Proof.
  induction l as [|t l IH]; intros i j T; cbn [map]; [split; constructor|]. destruct T as (A & B & T).
  destruct (IH _ _ T) as [N F]. split.
  - constructor; [|exact N]. intro I. rewrite Forall_forall in F. specialize (F _ I). lia.
  - constructor; [lia|]. eapply Forall_impl; [|exact F]. intros k K. cbn in K. lia.
Qed.

(** Two arguments that Visit shows, one before the other. *)
Theorem text_places is_punct text p n : reach is_punct text p -> fst (text_of is_punct p) = Ok (Got (Some n)) ->
  forall f q x rel f' q' x' rel',
    before (Some (NPredArg f q x rel)) (Some (NPredArg f' q' x' rel')) (visit (func_visitor record) n tt []) ->
    exists i j, node_start x = Ok i /\ node_start x' = Ok j /\ i <> j.
Proof.
  intros R E f q x rel f' q' x' rel' (a & b & c & B).
  destruct (text_sorted _ _ p n R E) as [_ S]. pose proof (sorted_fine n S) as F.
  assert (Sh : shown n (visit (func_visitor record) n tt [])) by (apply visit_shown; reflexivity).
  destruct (proj1 (proj1 shown_covers _ _ Sh F)) as (r & P).
  destruct (text_words _ _ p n R E) as (e & _ & _ & _ & _ & (l & Pl & T) & _).
  assert (N : NoDup (starts_in n)).
  { unfold starts_in. replace (map w_s (words n)) with (map t_s (toks n)) by (unfold toks; rewrite map_map; reflexivity).
    eapply Permutation_NoDup; [apply Permutation_map; symmetry; exact Pl|]. exact (proj1 (tiles_nodup _ _ _ T)). }
  assert (K : forall f q x rel, In (Some (NPredArg f q x rel)) (visit (func_visitor record) n tt []) -> exists i, node_start x = Ok i).
  { intros g g' y rl I. apply visit_below in I. exact (proj2 (F _ _ _ _ I)). }
  destruct (K f q x rel) as (i & Hi); [rewrite B; apply in_or_app; right; left; reflexivity|].
  destruct (K f' q' x' rel') as (j & Hj); [rewrite B; apply in_or_app; right; right; apply in_or_app; right; left; reflexivity|].
  exists i, j. split; [exact Hi|]. split; [exact Hj|].
  pose proof (Permutation_NoDup P N) as D. rewrite B in D. rewrite !keys_app in D.
  change (Some (NPredArg f q x rel) :: b ++ Some (NPredArg f' q' x' rel') :: c) with ([Some (NPredArg f q x rel)] ++ b ++ [Some (NPredArg f' q' x' rel')] ++ c) in D.
  rewrite !keys_app in D. unfold keys at 2 4 in D. cbn [flat_map arg_key] in D. unfold start_of in D. rewrite Hi, Hj in D. cbn [app] in D.
  rewrite <- app_assoc in D. apply NoDup_remove_2 in D. intros ->. apply D. rewrite !in_app_iff. cbn [In]. tauto.
Qed.

Open Scope string_scope.
Definition nested_text : string := "hao? go po/ sa poq/ ga jiV mai? hu suq/ ji/ na ra mai? ji/ roi suq/".
Lemma nested_case : exists n, fst (text_of ascii_punct (new_parser nested_text)) = Ok (Got (Some n)) /\
  flat_map (fun o => match o with Some (NPredArg _ _ x _) => [node_start x] | _ => [] end) (visit (func_visitor record) n tt []) =
  [Ok 8; Ok 15; Ok 35; Ok 40; Ok 55; Ok 63].
Proof. eexists. split; [vm_compute; reflexivity|]. vm_compute. reflexivity. Qed.
