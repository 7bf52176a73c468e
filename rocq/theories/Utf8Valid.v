(** Which strings are UTF-8: what is matched in a text, the words of a tree, and what is
    printed from them. *)

From Coq Require Import String Ascii NArith List Bool Arith Lia DecimalString.
From Coq Require Import PArith FMapPositive.
From Verif Require Import Base Utf8 Utf8Facts PegSyntax PegFacts Peg PegSpec PegText Tone ToneFacts Grammar Ast Action ActionSpec AstInd AstSorts VisitSpec TileFacts
  TileSpec SpellFacts WordSpell Parser ParserSpec ApiFacts PegToaq PegToaqFacts ActionFacts TreeSpec ModWords LogicWords LogicString JsonFacts.
Import ListNotations.
Open Scope string_scope.
Open Scope list_scope.
Open Scope nat_scope.

Definition utf8 (s : string) : Prop := exists l, s = of_runes l.

Lemma utf8_of l : utf8 (of_runes l).
Proof. exists l. reflexivity. Qed.
Lemma utf8_app a b : utf8 a -> utf8 b -> utf8 (a ++ b)%string.
Proof. intros [l ->] [m ->]. exists (l ++ m). symmetry. apply of_runes_app. Qed.
Lemma utf8_nil : utf8 "".
Proof. exists []. reflexivity. Qed.
Lemma shown_utf8 s : shown s = s <-> utf8 s.
Proof.
  split; [intros <-; apply utf8_of|]. intros [l ->]. unfold shown. rewrite runes_of_runes. apply of_runes_clean.
Qed.
Lemma utf8_concat l : Forall utf8 l -> utf8 (String.concat "" l).
Proof.
  induction 1 as [|x l X F IH]; [apply utf8_nil|]. cbn [String.concat]. destruct l; [exact X|]. apply utf8_app; [exact X|]. exact IH.
Qed.
Lemma utf8_first s : utf8 s -> utf8 (stake (snd (decode_rune s)) s) /\ utf8 (sdrop (snd (decode_rune s)) s).
Proof.
  intros [[|r l] ->]; [split; apply utf8_nil|]. cbn [of_runes]. assert (E : encode_rune r = encode_rune (clean r)) by (unfold clean; destruct (valid_rune r) eqn:V; [reflexivity|unfold encode_rune; rewrite V; reflexivity]).
  rewrite E, decode_encode_app by (unfold clean; destruct (valid_rune r) eqn:V; [exact V|reflexivity]). cbn [snd]. rewrite stake_app, sdrop_app. split; [|apply utf8_of]. exists [clean r]. cbn [of_runes]. rewrite sapp_nil_r. reflexivity.
Qed.
Ltac lit s := exists (runes s); vm_compute; reflexivity.
Lemma utf8_ascii a : (byte_of a < 128)%N -> utf8 (String a "").
Proof. intros L. exists [byte_of a]. cbn [of_runes]. unfold encode_rune. assert (V : valid_rune (byte_of a) = true) by (apply valid_rune_spec; lia). rewrite V, (proj2 (N.ltb_lt _ _) L), byte_byte_of. reflexivity. Qed.
Lemma utf8_itoa n : utf8 (itoa n).
Proof.
  unfold itoa. induction (Nat.to_uint n) as [|u IH|u IH|u IH|u IH|u IH|u IH|u IH|u IH|u IH|u IH]; cbn [NilEmpty.string_of_uint]; [apply utf8_nil|..];
    match goal with |- utf8 (String ?a ?x) => change (utf8 (String a "" ++ x)%string) end; (apply utf8_app; [apply utf8_ascii; reflexivity|exact IH]).
Qed.

(** ** What is matched *)

Definition classes_real : expr -> bool := fix go (e : expr) : bool :=
  match e with
  | ELit s => String.eqb (of_runes (runes s)) s
  | EClass rs => forallb real rs
  | EAny | EPunct | ECall _ => true
  | ESeq a b | EChoice a b => go a && go b
  | EPlus a | EOpt a | EAnd a | ENot a | ESub a | ELabel _ a | EAction _ _ a => go a
  end.
Lemma toaq_real_check : forallb (fun p => classes_real (r_body (snd p))) (PositiveMap.elements rule_map) = true.
Proof. vm_compute. reflexivity. Qed.
Lemma toaq_real r : classes_real (r_body (toaq r)) = true.
Proof.
  unfold toaq. destruct (PositiveMap.find r rule_map) as [x|] eqn:E; [|reflexivity].
  pose proof toaq_real_check as H. rewrite forallb_forall in H. apply (H (r, x)). apply PositiveMap.elements_correct. exact E.
Qed.

Lemma toaq_names_check : forallb (fun p => String.eqb (of_runes (runes (r_name (snd p)))) (r_name (snd p))) (PositiveMap.elements rule_map) = true.
Proof. vm_compute. reflexivity. Qed.
Lemma toaq_names r : utf8 (r_name (toaq r)).
Proof.
  unfold toaq. destruct (PositiveMap.find r rule_map) as [x|] eqn:E; [|exists []; reflexivity].
  pose proof toaq_names_check as H. rewrite forallb_forall in H. specialize (H (r, x) (PositiveMap.elements_correct _ _ E)). cbn [snd] in H. apply String.eqb_eq in H. rewrite <- H. apply utf8_of.
Qed.

Section Text.
Variable is_punct : N -> bool.
Variable text : string.
Notation sem := (@PegSpec.sem toaq is_punct text).
Notation star := (@PegSpec.star toaq is_punct text).
Notation vsem := (@ActionSpec.vsem toaq is_punct text).
Notation vstar := (@ActionSpec.vstar toaq is_punct text).
Notation L := (String.length text).

Definition proper (m : pnode) : Prop := forall x, inside x m -> utf8 (p_text x) /\ utf8 (p_name x).
Definition matched (pos p : nat) (k : list pnode) : Prop := utf8 (slice text pos p) /\ forall m, In m k -> proper m.
Lemma matched_nil pos : matched pos pos [].
Proof. split; [rewrite slice_nil; apply utf8_nil|intros m []]. Qed.
Lemma matched_leaf pos p : utf8 (slice text pos p) -> matched pos p [mk_leaf text pos p].
Proof.
  intros V. split; [exact V|]. intros m [<-|[]] x X. apply inside_kids in X. destruct X as [->|(y & [] & _)]. split; [exact V|apply utf8_nil].
Qed.
Lemma matched_node nm pos p k : utf8 nm -> matched pos p k -> matched pos p [PNode nm (stake (p - pos) (sdrop pos text)) k].
Proof.
  intros N [V K]. split; [exact V|]. intros m [<-|[]] x X. apply inside_kids in X. destruct X as [->|(y & Y & X)]; [split; [exact V|exact N]|exact (K y Y x X)].
Qed.
Lemma matched_app a b c k1 k2 : a <= b <= c -> matched a b k1 -> matched b c k2 -> matched a c (k1 ++ k2).
Proof.
  intros B [V1 K1] [V2 K2]. split; [rewrite <- (slice_app text a b c B); apply utf8_app; assumption|]. intros m I. apply in_app_or in I. destruct I; auto.
Qed.
Lemma matched_rune pos r w : decode_rune (sdrop pos text) = (r, w) -> r <> rune_error -> matched pos (pos + w) [mk_leaf text pos (pos + w)].
Proof. intros D N. apply matched_leaf. destruct (decode_slice _ _ _ _ D N) as [E _]. rewrite E. apply utf8_of. Qed.

Lemma sem_matched :
  (forall e pos res err, sem e pos res err -> classes_real e = true -> pos <= L -> match res with Some (p, k) => matched pos p k | None => True end) /\
  (forall e pos p k err, star e pos p k err -> classes_real e = true -> pos <= L -> matched pos p k).
Proof.
  apply sem_star_ind; cbn [classes_real]; intros; repeat match goal with H : (_ && _)%bool = true |- _ => apply andb_true_iff in H; destruct H end; try exact I; try apply matched_nil;
    try (match goal with H : _ -> _ -> ?X |- ?X => apply H; assumption end); try (eapply matched_rune; eassumption).
  - apply matched_leaf. apply String.eqb_eq in H. unfold slice. replace (pos + String.length s - pos) with (String.length s) by lia. rewrite e, stake_app, <- H. apply utf8_of.
  - eapply matched_rune; [eassumption|]. rewrite forallb_forall in H. exact (proj2 (real_spec _ (H _ i))).
  - apply matched_node; [apply toaq_names|]. apply H; [apply toaq_real|assumption].
  - destruct (sem_some _ _ _ _ _ _ toaq_wf _ _ _ _ _ s H2) as [B1 _].
    destruct (sem_some _ _ _ _ _ _ toaq_wf _ _ _ _ _ s0 (proj2 B1)) as [B2 _].
    eapply matched_app; [|apply H; [assumption|lia]|apply H0; [assumption|lia]]. lia.
  - destruct (sem_some _ _ _ _ _ _ toaq_wf _ _ _ _ _ s H2) as [B1 _].
    destruct (proj2 (sem_bounds_all _ is_punct text _ _ _ toaq_wf) _ _ _ _ _ s0 (proj2 B1)) as [_ B2].
    eapply matched_app; [|apply H; [assumption|lia]|apply H0; [assumption|lia]]. lia.
  - apply matched_node; [apply utf8_nil|]. apply H; assumption.
  - destruct (sem_some _ _ _ _ _ _ toaq_wf _ _ _ _ _ s H2) as [B1 _].
    destruct (proj2 (sem_bounds_all _ is_punct text _ _ _ toaq_wf) _ _ _ _ _ s0 (proj2 B1)) as [_ B2].
    eapply matched_app; [|apply H; [assumption|lia]|apply H0; [assumption|lia]]. lia.
Qed.
Theorem tree_proper p n : reach is_punct text p -> fst (tree is_punct p) = Ok (Got (Some n)) -> proper n.
Proof.
  intros H Ht. apply (tree_sem _ _ p H) in Ht. destruct Ht as (q & err & Hs).
  exact (proj2 (proj1 sem_matched _ _ _ _ Hs eq_refl (Nat.le_0_l _)) n (or_introl eq_refl)).
Qed.

(** ** Words *)

Fixpoint text_ok (v : val) : Prop := match v with VStr s => utf8 s | VOpt (Some v) => text_ok v | _ => True end.
Definition vok (v : val) : Prop := text_ok v /\ forall t, In t (atoks v) -> utf8 (t_text t).
Lemma vok_str s : utf8 s -> vok (VStr s).
Proof. intros V. split; [exact V|intros t []]. Qed.
Lemma vok_unit : vok VUnit.
Proof. split; [exact I|intros t []]. Qed.
Lemma vok_vcat a b : vok a -> vok b -> vok (vcat a b).
Proof. intros [A _] [B _]. destruct a; try apply vok_unit. destruct b; try apply vok_unit. apply vok_str, utf8_app; assumption. Qed.
Lemma vok_vplus a b : vok a -> vok b -> vok (vplus a b).
Proof.
  intros [A A'] [B B']. destruct a; try apply vok_unit; try (destruct n; apply vok_unit).
  - destruct b; try apply vok_unit. apply vok_str, utf8_app; assumption.
  - destruct n; try apply vok_unit. destruct b; try apply vok_unit. split; [exact I|]. cbn [vplus atoks vtoks] in *. unfold toks in *. cbn [words] in *. rewrite flat_map_app, map_app. cbn [flat_map]. rewrite app_nil_r.
    intros t T. apply in_app_or in T. destruct T; auto.
Qed.
Lemma vok_vplus0 a : vok a -> vok (vplus0 a).
Proof.
  intros [A A']. destruct a; try apply vok_unit; [apply vok_str, A|]. split; [exact I|]. cbn [vplus0 atoks vtoks] in *. unfold toks in *. cbn [words flat_map] in *. rewrite app_nil_r. exact A'.
Qed.
Lemma get_label_vok l en v : Forall vok (map snd en) -> get_label l en = Some v -> vok v.
Proof.
  induction en as [|[l' v'] en IH]; cbn [get_label map snd]; intros F E; [discriminate|]. inversion F; subst. destruct (Nat.eqb l l'); [congruence|auto].
Qed.
Lemma get_labels_vok ls en vs : Forall vok (map snd en) -> get_labels ls en = Some vs -> Forall vok vs.
Proof.
  revert vs. induction ls as [|l ls IH]; cbn [get_labels]; intros vs F E; [injection E as <-; constructor|].
  destruct (get_label l en) as [v|] eqn:G; [|discriminate]. destruct (get_labels ls en) as [vs'|]; [|discriminate]. injection E as <-.
  constructor; [eapply get_label_vok; eassumption|auto].
Qed.
Lemma utf8_dotless l : utf8 l -> utf8 (if String.eqb l "i" then "ı" else l).
Proof. intros V. destruct (String.eqb l "i"); [lit "ı"|exact V]. Qed.
Lemma utf8_diacritic t l f : diacritic_of t l = Ok f -> utf8 f.
Proof. intros D. apply diacritic_toned in D. destruct D as (r & -> & _). apply utf8_of. Qed.
Lemma utf8_add_tone d t f : utf8 d -> add_tone d t = Ok f -> utf8 f.
Proof.
  intros V E. unfold add_tone in E. apply bind_ok in E. destruct E as (y & D & E). injection E as <-. apply utf8_app; [exact (utf8_diacritic _ _ _ D)|apply utf8_first, V].
Qed.
Lemma act_vok a i j vs v : Forall vok vs -> run_act a i j vs = Ok v -> vok v.
Proof.
  intros F E. destruct (wordy a) eqn:W; [|destruct (match a with AWordSpace => true | _ => false end) eqn:WS].
  - destruct a; try discriminate W; destruct vs as [|[] [|]]; try discriminate E; injection E as <-; inversion F; subst; (split; [exact I|]; intros t [<-|[]]; exact (proj1 H1)).
  - destruct a; try discriminate WS. destruct vs as [|[] [|[] [|]]]; try discriminate E. cbn [run_act] in E. apply bind_ok in E. destruct E as (w & E & X). injection X as <-. inversion F as [|? ? [A _] F']; subst. inversion F' as [|? ? [_ B] _]; subst.
    split; [exact I|]. intros t T. destruct (wmod_in t _ _ _ E T) as [[<-|[]]|K]; [exact A|exact (B t K)].
  - split.
    + destruct a; try discriminate W; try discriminate WS; inva E; try exact I; repeat match goal with H : Forall vok (_ :: _) |- _ => inversion H; clear H; subst end;
        repeat match goal with H : vok (VStr _) |- _ => destruct H as [H _]; cbn [text_ok] in H end.
      * match goal with H : vok _ |- _ => exact (proj1 H) end.
      * apply utf8_nil.
      * apply utf8_dotless; assumption.
      * eapply utf8_diacritic; eassumption.
      * match goal with H : add_tone _ _ = _ |- _ => eapply utf8_add_tone; [|exact H]; assumption end.
    + intros t T. assert (K := act_toks a i j vs v E W ltac:(intros ->; discriminate WS) t T). apply in_flat_map in K. destruct K as (x & X & K). rewrite Forall_forall in F. exact (proj2 (F x X) t K).
Qed.

Definition out_ok (o : aout (val * env)) : Prop := match o with AOk p (v, en) => vok v /\ Forall vok (map snd en) | _ => True end.
Lemma stuck_ok o : stuck o = true -> out_ok o.
Proof. destruct o; [| |discriminate]; intros _; exact I. Qed.
Lemma terminal_utf8 e pos p k err : terminal e = true -> classes_real e = true -> sem e pos (Some (p, k)) err -> utf8 (slice text pos p).
Proof.
  intros T R X. destruct e; try discriminate T; inversion X; subst; cbn [classes_real] in R.
  - apply String.eqb_eq in R. unfold slice. replace (pos + String.length s - pos) with (String.length s) by lia. match goal with H : sdrop pos text = _ |- _ => rewrite H end. rewrite stake_app, <- R. apply utf8_of.
  - eapply matched_rune; [eassumption|]. rewrite forallb_forall in R. match goal with H : In _ _ |- _ => exact (proj2 (real_spec _ (R _ H))) end.
  - eapply matched_rune; eassumption.
  - eapply matched_rune; eassumption.
Qed.
Lemma vsem_ok :
  (forall e pos o, vsem e pos o -> classes_real e = true -> out_ok o) /\
  (forall e pos v o, vstar e pos v o -> classes_real e = true -> vok v -> out_ok o).
Proof.
  apply vsem_star_ind; cbn [classes_real]; intros; repeat match goal with H : (_ && _)%bool = true |- _ => apply andb_true_iff in H; destruct H end; try exact I; try (apply stuck_ok; assumption);
    try (match goal with H : _ -> ?X |- ?X => apply H; assumption end); cbn [out_ok map snd] in *.
  - split; [apply vok_str|constructor]. eapply terminal_utf8; eassumption.
  - split; [apply H, toaq_real|constructor].
  - destruct (H ltac:(assumption)) as [A B]. destruct (H0 ltac:(assumption)) as [A' B']. split; [apply vok_vcat; assumption|]. rewrite map_app. apply Forall_app. split; assumption.
  - apply H0; [assumption|]. apply vok_vplus0. exact (proj1 (H ltac:(assumption))).
  - split; [exact (proj1 (H H0))|constructor].
  - split; [|constructor]. split; [exact I|intros t []].
  - split; [apply vok_str, utf8_nil|constructor].
  - split; [apply vok_str, utf8_nil|constructor].
  - split; [exact (proj1 (H H0))|]. constructor; [exact (proj1 (H H0))|constructor].
  - split; [|constructor]. unfold run_action in e0. destruct (get_labels args en) as [vs|] eqn:G; [|discriminate]. eapply act_vok; [|eassumption]. eapply get_labels_vok; [|eassumption]. exact (proj2 (H H0)).
  - split; [assumption|constructor].
  - apply H0; [assumption|]. apply vok_vplus; [assumption|]. exact (proj1 (H ltac:(assumption))).
Qed.
Theorem text_utf8 p n : reach is_punct text p -> fst (text_of is_punct p) = Ok (Got (Some n)) -> forall w, In w (words n) -> utf8 (w_t w).
Proof.
  intros R E w W. apply (proj1 (text_sem _ _ p R)) in E. destruct E as (q & V). destruct (proj1 vsem_ok _ _ _ V eq_refl) as [[_ K] _].
  exact (K (tok w) (in_map tok _ _ W)).
Qed.
End Text.
