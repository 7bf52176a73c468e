(** The kinds of RoleKinds.v are right: the claims of Roles.v hold of every parsed tree. *)

From Coq Require Import String Ascii Arith NArith ZArith PArith List Bool FMapPositive Lia.
From Verif Require Import SortApi Base Utf8 Utf8Facts Tone ToneSpec ToneFacts PegSyntax Grammar Peg PegToaq PegSpec PegFacts PegToaqFacts Ast AstInd ModFacts ModSpec ModWords
  Action ActionSpec Parser ActionFacts PegText ParserSpec ApiFacts ActionTypes ActionTypeFacts TileSpec TileFacts Roles RoleKinds.
Import ListNotations.
Open Scope nat_scope.
Open Scope list_scope.
Open Scope res_scope.

(** ** Claims *)

Definition wm (w : word) : list claim := match w with Wd _ _ _ (Some m) => claims vb m | _ => [] end.
Definition fc (ts : list N) (w : word) : list claim := Said ts (w_t w) :: wm w.
Definition oc (w : option word) : list claim := match w with Some w => fc [no_tone] w | None => [] end.
Definition ac_ (d : list node) : list claim := flat_map (claims vb) d.
Definition nc (n : option node) : list claim := match n with Some n => claims vb n | None => [] end.
Definition lc (n : option (list node)) : list claim := match n with Some n => ac_ n | None => [] end.

Lemma claims_eq r n : claims r n =
  match n with
  | NText ld d => nc ld ++ ac_ d
  | NDiscourse d | NTerms d => ac_ d
  | NSentence je st da => oc je ++ claims vb st ++ oc da
  | NPrenex ts bi => ac_ ts ++ fc [no_tone] bi
  | NPrenexStmt p st => claims vb p ++ claims vb st
  | NPredication p ts na => claims r p ++ lc ts ++ oc na
  | NPrefixed mu p => fc [no_tone] mu ++ claims r p
  | NSerial a b => claims r a ++ claims vb b
  | NWordPredicate w => fc r w
  | NMi mi ga p => fc r mi ++ claims vb p ++ oc ga
  | NPo po ga a => fc r po ++ claims vb a ++ oc ga
  | NMo mo teo d => fc r mo ++ ac_ d ++ fc [no_tone] teo
  | NLinked go a => fc [no_tone] go ++ claims vb a
  | NPredArg fo q p rel => oc fo ++ oc q ++ claims [arg_t] p ++ nc rel
  | NPredRel p => claims [relative_t] p
  | NAdverb p => claims [adverb_t] p
  | NPrep p a => claims [prep_t] p ++ claims vb a
  | NPredContent p => claims [content_t] p
  | NParen kio ki d => fc [no_tone] kio ++ ac_ d ++ fc [no_tone] ki
  | NIncidental ju st => fc [no_tone] ju ++ claims vb st
  | NVocative hu a => fc [no_tone] hu ++ claims vb a
  | NInterjection w => fc [no_tone] w
  | NSpace w | NWord w => wm w
  | NCoP k to0 to1 ru a b =>
      match k with CTermSet => [Lengths (n_terms a) (n_terms b)] | _ => [] end ++ oc to0 ++ fc [no_tone] ru ++
      claims match k with CPredicate => r | _ => vb end a ++ oc to1 ++ claims match k with CPredicate => right_role r | _ => vb end b
  | NLU k lu st => fc match k with LRelative => [relative_t] | LContent => [content_t] | _ => r end lu ++ claims vb st
  end.
Proof. destruct n; try reflexivity. destruct k; reflexivity. Qed.

Notation all_hold := (Forall claim_holds).
Definition good (r : list N) (n : node) : Prop := all_hold (claims r n).
Definition goodw (ts : list N) (w : word) : Prop := all_hold (fc ts w).

Ltac fsplit := repeat match goal with
  | H : Forall _ (_ ++ _) |- _ => apply Forall_app in H; destruct H
  | H : Forall _ (_ :: _) |- _ => apply Forall_cons_iff in H; destruct H
  | |- Forall _ (_ ++ _) => apply Forall_app; split
  | |- Forall _ (_ :: _) => apply Forall_cons
  | |- Forall _ [] => constructor
  end.

Section Mods.
Variable mm : option node.
Hypothesis Hmm : onO (good vb) mm.
Notation okn := (fun n => forall n', mod_node mm n = Ok n' -> n_terms n' = n_terms n /\ forall r, good r n -> good r n').
Notation okw := (fun w => forall w', mod_word mm w = Ok w' -> w_t w' = w_t w /\ (all_hold (wm w) -> all_hold (wm w'))).

Lemma map_last_good (f : node -> res node) d d' : (forall x y, f x = Ok y -> mod_node mm x = Ok y) -> Forall okn d ->
  map_last f d = Ok d' -> length d' = length d /\ (all_hold (ac_ d) -> all_hold (ac_ d')).
Proof.
  intros F. revert d'. induction d as [|x d IH]; intros d' H E; [discriminate|]. inversion H as [|? ? Hx Hd]; subst.
  cbn [map_last] in E. destruct d as [|y d]; apply bind_ok in E; destruct E as (z & Ez & E); injection E as <-.
  - split; [reflexivity|]. unfold ac_. cbn [flat_map]. rewrite !app_nil_r. apply Hx, F, Ez.
  - destruct (IH _ Hd Ez) as [L K]. split; [cbn [length] in *; lia|]. unfold ac_ in *. cbn [flat_map] in *. intros T. fsplit; auto. apply K. fsplit; auto.
Qed.
Lemma discourse_good d d' : Forall okn d -> discourse_mod (mod_node mm) d = Ok d' -> length d' = length d /\ (all_hold (ac_ d) -> all_hold (ac_ d')).
Proof. apply map_last_good. intros x y. destruct (_ || _)%bool; [auto|discriminate]. Qed.
Lemma terms_good d d' : Forall okn d -> terms_mod mm (mod_node mm) d = Ok d' -> length d' = length d /\ (all_hold (ac_ d) -> all_hold (ac_ d')).
Proof. intros H E. assert (K := fun f => map_last_good f d d'). unfold terms_mod in E. destruct mm; [eapply K; eauto|]. injection E as <-. auto. Qed.

Lemma mod_good : (forall n, okn n) /\ (forall w, okw w).
Proof.
  apply (node_word_ind okn okw); intros ??;
    intros; match goal with E : _ = Ok _ |- _ => rename E into E' end;
    (first [rewrite mod_node_eq in E'|rewrite mod_word_eq in E']);
    repeat match type of E' with context [match ?x with Some _ => _ | None => _ end] => is_var x; destruct x eqn:?; cbn [onO] in * end;
    try (apply bind_ok in E'; destruct E' as (x & Ex & E'));
    injection E' as <-.
  all: try match type of Ex with
    | discourse_mod _ _ = Ok _ => let L := fresh "L" in destruct (discourse_good _ _ ltac:(eassumption) Ex) as [L ?]
    | terms_mod _ _ _ = Ok _ => let L := fresh "L" in destruct (terms_good _ _ ltac:(eassumption) Ex) as [L ?]
    | _ => match goal with H : forall n', _ = Ok n' -> _ |- _ => let L := fresh "L" in destruct (H _ Ex) as [L ?] end
    end.
  all: split; [cbn [n_terms w_t]; try reflexivity; try assumption|].
  all: try (intros r0; unfold good in *; match goal with |- Forall _ (claims r0 ?a) -> Forall _ (claims r0 ?b) => rewrite (claims_eq r0 a), (claims_eq r0 b) end;
    cbn [oc nc lc]; unfold fc; intros T; fsplit; rewrite ?L; auto; destruct k; fsplit; rewrite ?L; auto).
  all: try (cbn [wm]; auto).
  all: try (unfold good in *; auto; fail).
Qed.
End Mods.

(** ** Roles *)

Lemma incl_n_spec a b : incl_n a b = true -> incl a b.
Proof. unfold incl_n. rewrite forallb_forall. intros H x I. specialize (H x I). apply existsb_exists in H. destruct H as (y & J & E). apply N.eqb_eq in E. subst. exact J. Qed.

Lemma right_role_incl r s : incl r s -> incl (right_role r) (right_role s).
Proof.
  intros H. unfold right_role. destruct (existsb (N.eqb prep_t) r) eqn:E.
  - apply existsb_exists in E. destruct E as (x & I & E). replace (existsb (N.eqb prep_t) s) with true; [apply incl_refl|].
    symmetry. apply existsb_exists. eauto.
  - destruct (existsb _ s); intros x [<-|[]]; left; reflexivity.
Qed.

Lemma said_incl r s x : incl r s -> claim_holds (Said r x) -> claim_holds (Said s x).
Proof. intros H K. exact (H _ K). Qed.

Lemma good_incl : (forall n r s, incl r s -> good r n -> good s n) /\ (forall w : word, True).
Proof.
  apply (node_word_ind (fun n => forall r s, incl r s -> good r n -> good s n) (fun _ => True)); try (intros; exact I); intros;
    match goal with I : incl _ _ |- _ => rename I into I0 end;
    unfold good in *; match goal with K : Forall _ (claims ?a ?n) |- Forall _ (claims ?b ?n) => rename K into K0; rewrite (claims_eq b n); rewrite (claims_eq a n) in K0 end; unfold fc in *; fsplit; eauto using said_incl.
  - destruct k; eauto.
  - destruct k; eauto using right_role_incl.
  - destruct k; eauto using said_incl.
Qed.

(** ** Values *)

Definition plain_s (s : string) : Prop := exists l, s = of_runes l /\ forallb free l = true.
Definition toned_s (t : N) (s : string) : Prop :=
  exists l r x, s = (of_runes l ++ encode_rune r ++ x)%string /\ forallb free l = true /\ valid_rune r = true /\ toned_as r t.

Fixpoint has (k : kind) (v : val) {struct k} : Prop :=
  match k with
  | KBot => False
  | KAny => True
  | KPlain => exists s, v = VStr s /\ plain_s s
  | KMark t => exists s, v = VStr s /\ (fst (decode_rune s) = t \/ lookup (fst (decode_rune s)) diacritic = None)
  | KToned t => exists s, v = VStr s /\ toned_s t s
  | KWord t => exists w, v = VWord w /\ goodw [t] w
  | KNode (Some r) => exists n, v = VNode n /\ good r n
  | KNode None => exists n, v = VNode n /\ forall r, good r n
  | KTerms n => exists l, v = VNode (NTerms l) /\ length l = n /\ all_hold (ac_ l)
  | KDisc => exists l, v = VNode (NDiscourse l) /\ all_hold (ac_ l)
  | KOpt k => v = VOpt None \/ exists x, v = VOpt (Some x) /\ has k x
  | KRaw l r => exists to0 to1 ru a b, v = VNode (NCoP CRaw to0 to1 ru a b) /\
      all_hold (oc to0) /\ all_hold (oc to1) /\ goodw [no_tone] ru /\ has l (VNode a) /\ has r (VNode b)
  | KBar r => exists ru b, v = VBar ru b /\ goodw [no_tone] ru /\ has r (VNode b)
  | KForeBar r => exists to b, v = VForeBar to b /\ goodw [no_tone] to /\ has r (VNode b)
  | KFore l r => exists to a b, v = VFore to a b /\ goodw [no_tone] to /\ has l (VNode a) /\ has r (VNode b)
  | KConn => exists to ru, v = VConn to ru /\ goodw [no_tone] to /\ goodw [no_tone] ru
  | KMo t => exists mo d, v = VMo mo d /\ goodw [t] mo /\ all_hold (ac_ d)
  | KParen => exists mo d, v = VParen mo d /\ goodw [no_tone] mo /\ all_hold (ac_ d)
  | KLU t => exists lu st, v = VNode (NLU LRaw lu st) /\ goodw [t] lu /\ good vb st
  end.

Lemma keq_eq a b : keq a b = true -> a = b.
Proof. unfold keq. destruct (kind_eq_dec a b); [auto|discriminate]. Qed.

Lemma good_terms r l : good r (NTerms l) <-> all_hold (ac_ l).
Proof. unfold good. rewrite claims_eq. tauto. Qed.

Lemma ksub_ok : forall a b v, ksub a b = true -> has a v -> has b v.
Proof.
  assert (Q : forall a b v, keq a b = true -> has a v -> has b v) by (intros a b v E; apply keq_eq in E; subst; auto).
  induction a; intros b v H K; destruct b; try exact I; try (cbn [ksub] in H; exact (Q _ _ _ H K)); try (cbn [has] in K; contradiction); try discriminate H;
    try (match type of H with ksub (KNode ?r) ?b = true => lazymatch b with KNode _ => fail | _ => destruct r; cbn [ksub] in H; exact (Q _ _ _ H K) end end).
  - cbn [ksub] in H. destruct r as [r|], r0 as [s|]; try discriminate H; destruct K as (n & -> & K).
    + exists n. split; [reflexivity|]. apply incl_n_spec in H. exact (proj1 good_incl n r s H K).
    + exists n. auto.
    + exists n. auto.
  - cbn [ksub] in H. destruct K as (l & -> & E & K). destruct r as [r|]; exists (NTerms l); (split; [reflexivity|]); intros; apply good_terms; exact K.
  - destruct K as (l & -> & K). destruct r as [r|]; exists (NDiscourse l); (split; [reflexivity|]); intros; unfold good; rewrite claims_eq; exact K.
  - cbn [ksub] in H. destruct K as [->|(x & -> & K)]; [left; reflexivity|right; exists x; split; [reflexivity|eapply IHa; eauto]].
  - cbn [ksub] in H. apply andb_prop in H. destruct H as [H1 H2]. destruct K as (to0 & to1 & ru & a & b & -> & A & B & C & D & E). exists to0, to1, ru, a, b. repeat split; auto.
  - cbn [ksub] in H. destruct K as (ru & b' & -> & A & B). exists ru, b'. auto.
  - cbn [ksub] in H. destruct K as (ru & b' & -> & A & B). exists ru, b'. auto.
  - cbn [ksub] in H. apply andb_prop in H. destruct H as [H1 H2]. destruct K as (to & a & b & -> & A & B & C). exists to, a, b. auto.
Qed.

Lemma kjoin_ok a b v : (has a v -> has (kjoin a b) v) /\ (has b v -> has (kjoin a b) v).
Proof.
  unfold kjoin. destruct (ksub a b) eqn:E; [split; [apply ksub_ok; exact E|auto]|]. destruct (ksub b a) eqn:F; [split; [auto|apply ksub_ok; exact F]|].
  assert (T : forall n v, has (KTerms n) v -> has (KNode None) v) by (intros n x; apply ksub_ok; reflexivity).
  assert (O : forall n v, has (KOpt (KTerms n)) v -> has (KOpt (KNode None)) v) by (intros n x; apply ksub_ok; reflexivity).
  destruct a; try (split; intros; exact I); try discriminate E; destruct b; try discriminate E; try discriminate F; try (split; intros; exact I).
  all: try (destruct a; split; intros; exact I).
  - split; apply T.
  - destruct a; try (split; intros; exact I). destruct b; try (split; intros; exact I). split; apply O.
Qed.

Lemma of_runes_app a b : of_runes (a ++ b) = (of_runes a ++ of_runes b)%string.
Proof. induction a as [|x a IH]; [reflexivity|]. cbn [of_runes app]. rewrite IH. symmetry; apply sapp_assoc. Qed.

Lemma plain_cat a b : plain_s a -> plain_s b -> plain_s (a ++ b).
Proof. intros (l & -> & L) (m & -> & M). exists (l ++ m). split; [rewrite of_runes_app; reflexivity|]. rewrite forallb_app, L, M. reflexivity. Qed.
Lemma toned_cat t a b : toned_s t a -> toned_s t (a ++ b).
Proof. intros (l & r & x & -> & L & V & T). exists l, r, (x ++ b)%string. rewrite !sapp_assoc. auto. Qed.
Lemma plain_toned_cat t a b : plain_s a -> toned_s t b -> toned_s t (a ++ b).
Proof. intros (m & -> & M) (l & r & x & -> & L & V & T). exists (m ++ l), r, x. rewrite of_runes_app, forallb_app, M, L, !sapp_assoc. auto. Qed.

Lemma is_string_has k v : is_string k = true -> has k v -> exists s, v = VStr s.
Proof. destruct k; try discriminate; intros _ (s & -> & _); eauto. Qed.

Lemma kcat_ok a b v w : has a v -> has b w -> has (kcat a b) (vcat v w).
Proof.
  intros A B. destruct a; try exact I; try contradiction; destruct b; try exact I; try contradiction; cbn [kcat is_string];
    try (destruct A as (s & -> & A); destruct B as (u & -> & B); cbn [vcat]; eexists; (split; [reflexivity|]); eauto using plain_cat, toned_cat, plain_toned_cat).
Qed.

Lemma kplus_first k v : has k v -> has (kplus k) (vplus0 v).
Proof.
  intros A. destruct k; try exact I; try contradiction; cbn [kplus].
  - destruct A as (s & -> & A). exists s. auto.
  - destruct A as (s & -> & A). exists s. auto.
  - destruct r as [r|]; [exact I|]. destruct A as (n & -> & A). exists [n]. split; [reflexivity|]. unfold ac_. cbn [flat_map]. rewrite app_nil_r. apply A.
  - destruct A as (l & -> & _ & A). exists [NTerms l]. split; [reflexivity|]. unfold ac_. cbn [flat_map]. rewrite app_nil_r. apply good_terms. exact A.
Qed.
Lemma kplus_next k acc v : has (kplus k) acc -> has k v -> has (kplus k) (vplus acc v).
Proof.
  intros A B. destruct k; try exact I; try contradiction; cbn [kplus] in *.
  - destruct A as (s & -> & A). destruct B as (u & -> & B). eexists. split; [reflexivity|]. apply plain_cat; assumption.
  - destruct A as (s & -> & A). destruct B as (u & -> & B). eexists. split; [reflexivity|]. apply toned_cat; assumption.
  - destruct r as [r|]; [exact I|]. destruct A as (l & -> & A). destruct B as (m & -> & B). exists (l ++ [m]). split; [reflexivity|]. unfold ac_ in *. rewrite flat_map_app. cbn [flat_map]. rewrite app_nil_r. fsplit; [exact A|apply B].
  - destruct A as (l & -> & A). destruct B as (m & -> & _ & B). exists (l ++ [NTerms m]). split; [reflexivity|]. unfold ac_ in *. rewrite flat_map_app. cbn [flat_map]. rewrite app_nil_r. fsplit; [exact A|apply good_terms; exact B].
Qed.

(** ** Strings *)

Lemma free_clean l : forallb free l = true -> map clean l = l.
Proof.
  induction l as [|x l IH]; [reflexivity|]. cbn [forallb map]. intros H. apply andb_prop in H. destruct H as [A B]. rewrite (IH B).
  apply andb_prop in A. destruct A as [A _]. unfold clean. rewrite A. reflexivity.
Qed.
Lemma free_find l rest : forallb free l = true -> find marked (l ++ rest) = find marked rest.
Proof.
  induction l as [|x l IH]; [reflexivity|]. cbn [forallb app find]. intros H. apply andb_prop in H. destruct H as [A B].
  apply andb_prop in A. destruct A as [_ A]. apply negb_true_iff in A. rewrite A. exact (IH B).
Qed.
Lemma plain_tone s : plain_s s -> tone s = no_tone.
Proof.
  intros (l & -> & L). rewrite tone_find, runes_of_runes, free_clean by exact L. rewrite <- (app_nil_r l), free_find by exact L. reflexivity.
Qed.
Lemma toned_tone t s : toned_s t s -> tone s = t.
Proof.
  intros (l & r & x & -> & L & V & T). rewrite tone_find, runes_of_runes_app, free_clean by exact L. rewrite free_find by exact L.
  rewrite runes_encode_app. unfold clean. rewrite V. cbn [find].
  pose proof (tone_of_toned r t T) as E. assert (G := toned_ge r ltac:(exists t; exact T)).
  destruct (mem_rune r tone_name_runes) eqn:M.
  - apply marker_spec, marker_facts in M. lia.
  - unfold marked. rewrite M, E. cbn [orb]. destruct (N.eqb_spec t 0) as [Z|Z]; [|cbn [negb]; rewrite M; symmetry; exact (eq_sym E)].
    exfalso. apply toned_facts in T. tauto.
Qed.

Lemma diacritic_toned t l f : diacritic_of t l = Ok f -> exists r, f = encode_rune r /\ valid_rune r = true /\ toned_as r t.
Proof.
  unfold diacritic_of. intros H. destruct (lookup t diacritic) as [rows|] eqn:L; [|discriminate]. destruct (slookup l rows) as [[|g gs]|] eqn:S; try discriminate. injection H as <-.
  apply lookup_In in L.
  assert (I : In (l, g :: gs) rows).
  { clear - S. induction rows as [|[k v] rows IH]; cbn [slookup] in S; [discriminate|]. destruct (String.eqb_spec l k) as [<-|]; [injection S as <-; left; reflexivity|right; auto]. }
  destruct (encode_toned g t l) as (E & _ & _ & V); [apply flatten_In; exists rows, (g :: gs); repeat split; auto; left; reflexivity|].
  exists (rune_of g). split; [auto|]. split; [exact V|]. exists rows, l, (g :: gs). repeat split; auto. left. auto.
Qed.

Lemma toned_one t r x : valid_rune r = true -> toned_as r t -> toned_s t (encode_rune r ++ x).
Proof. intros V T. exists [], r, x. repeat split; auto. Qed.

Lemma free_one r : free r = true -> plain_s (encode_rune r).
Proof. intros F. exists [r]. cbn [of_runes forallb]. rewrite F, sapp_nil_r. auto. Qed.

Lemma dotless_plain s : plain_s s -> plain_s (if String.eqb s "i" then "ı" else s).
Proof. intros P. destruct (String.eqb s "i"); [|exact P]. exists [305%N]. split; reflexivity. Qed.

Lemma class_has rs s : (exists r, In r rs /\ s = encode_rune r) -> has (class_kind rs) (VStr s).
Proof.
  intros (r & I & ->). unfold class_kind. destruct rs as [|r0 rs]; [contradiction|]. cbv zeta. destruct (existsb (N.eqb rune_error) (r0 :: rs)); [exact Logic.I|].
  destruct (forallb free (r0 :: rs)) eqn:F.
  - eexists. split; [reflexivity|]. rewrite forallb_forall in F. apply free_one, F, I.
  - destruct (forallb (has_tone _) (r0 :: rs)) eqn:H.
    + eexists. split; [reflexivity|]. rewrite forallb_forall in H. specialize (H r I). apply andb_prop in H. destruct H as [V H].
      apply existsb_exists in H. destruct H as ([x t] & J & K). apply andb_prop in K. destruct K as [K L]. apply N.eqb_eq in K, L. cbn [fst snd] in K, L. subst x t.
      rewrite <- (sapp_nil_r (encode_rune r)). apply toned_one; [exact V|]. apply toned_as_In. exact J.
    + destruct (forallb valid_rune (r0 :: rs)) eqn:V; [|exact Logic.I]. destruct (tone_names (r0 :: rs)) as [|t [|]] eqn:T; try exact Logic.I.
      eexists. split; [reflexivity|]. rewrite forallb_forall in V. specialize (V r I).
      rewrite <- (sapp_nil_r (encode_rune r)), decode_encode_app' . unfold clean. rewrite V. cbn [fst].
      destruct (lookup r diacritic) eqn:D; [left|right; reflexivity].
      assert (J : In r (tone_names (r0 :: rs))) by (apply filter_In; rewrite D; auto). rewrite T in J. destruct J as [J|[]]. auto.
Qed.

(** ** Actions *)

Lemma nmod_good s n n' : nmod s n = Ok n' -> has (KOpt (KNode None)) (VOpt s) -> n_terms n' = n_terms n /\ forall r, good r n -> good r n'.
Proof.
  intros E H. destruct s as [v|].
  - destruct H as [H|(x & H & K)]; [discriminate|]. injection H as <-. destruct K as (m & -> & K). exact (proj1 (mod_good (Some m) (K vb)) n n' E).
  - exact (proj1 (mod_good None I) n n' E).
Qed.
Lemma wmod_good s w w' : wmod s w = Ok w' -> has (KOpt (KNode None)) (VOpt s) -> forall ts, goodw ts w -> goodw ts w'.
Proof.
  intros E H ts G. assert (K : w_t w' = w_t w /\ (all_hold (wm w) -> all_hold (wm w'))).
  { destruct s as [v|].
    - destruct H as [H|(x & H & K)]; [discriminate|]. injection H as <-. destruct K as (m & -> & K). exact (proj2 (mod_good (Some m) (K vb)) w w' E).
    - exact (proj2 (mod_good None I) w w' E). }
  unfold goodw, fc in *. destruct K as [K L]. rewrite K. fsplit; auto.
Qed.
Lemma mod_shape_terms s l n' : nmod s (NTerms l) = Ok n' -> exists l', n' = NTerms l'.
Proof.
  destruct s as [[| |m| | | | | | | |]|]; try discriminate; cbn [nmod]; rewrite mod_node_eq; intros E; apply bind_ok in E; destruct E as (x & _ & E); injection E as <-; eauto.
Qed.
Lemma mod_shape_disc s l n' : nmod s (NDiscourse l) = Ok n' -> exists l', n' = NDiscourse l'.
Proof.
  destruct s as [[| |m| | | | | | | |]|]; try discriminate; cbn [nmod]; rewrite mod_node_eq; intros E; apply bind_ok in E; destruct E as (x & _ & E); injection E as <-; eauto.
Qed.
Lemma opt_word_good s o : opt_word s = Ok o -> has (KOpt (KWord no_tone)) (VOpt s) -> all_hold (oc o).
Proof.
  intros E [H|(x & H & K)]; injection H as ->; [injection E as <-; constructor|]. destruct K as (w & -> & K). injection E as <-. exact K.
Qed.
Lemma opt_node_good s o : opt_node s = Ok o -> has (KOpt (KNode None)) (VOpt s) -> all_hold (nc o).
Proof.
  intros E [H|(x & H & K)]; injection H as ->; [injection E as <-; constructor|]. destruct K as (w & -> & K). injection E as <-. apply K.
Qed.

Lemma knode_good r k n : knode r k = true -> has k (VNode n) -> good r n.
Proof. intros H K. apply (ksub_ok _ _ _ H) in K. destruct K as (m & E & K). injection E as <-. exact K. Qed.
Lemma kmod_has k v : kmod k = true -> has k v -> has (KOpt (KNode None)) v.
Proof. intros H. apply ksub_ok. exact H. Qed.
Lemma kword0_has k v : kword0 k = true -> has k v -> has (KOpt (KWord no_tone)) v.
Proof. intros H. apply ksub_ok. exact H. Qed.
Lemma some_node n : has (KOpt (KNode None)) (VOpt (Some (VNode n))) -> forall r, good r n.
Proof. intros [H|(x & H & K)]; [discriminate|]. injection H as <-. destruct K as (m & E & K). injection E as <-. exact K. Qed.
Lemma some_word w : has (KOpt (KWord no_tone)) (VOpt (Some (VWord w))) -> goodw [no_tone] w.
Proof. intros [H|(x & H & K)]; [discriminate|]. injection H as <-. destruct K as (m & E & K). injection E as <-. exact K. Qed.
Lemma goodw_eq ts w : goodw ts w <-> claim_holds (Said ts (w_t w)) /\ all_hold (wm w).
Proof. unfold goodw, fc. rewrite Forall_cons_iff. tauto. Qed.

Definition inrole (o : option (list N)) (r : list N) : Prop := match o with Some s => r = s | None => True end.
Lemma has_node o n : has (KNode o) (VNode n) <-> forall r, inrole o r -> good r n.
Proof.
  destruct o as [s|]; cbn [has inrole]; split.
  - intros (m & E & K) r ->. injection E as <-. exact K.
  - intros K. exists n. split; [reflexivity|]. apply K. reflexivity.
  - intros (m & E & K) r _. injection E as <-. apply K.
  - intros K. exists n. split; [reflexivity|]. intros r. apply K. exact I.
Qed.
Lemma has_word t w : has (KWord t) (VWord w) <-> goodw [t] w.
Proof. split; [intros (x & E & K); injection E as <-; exact K|intros K; exists w; auto]. Qed.
Lemma has_terms n l : has (KTerms n) (VNode (NTerms l)) <-> length l = n /\ all_hold (ac_ l).
Proof. split; [intros (x & E & K); injection E as <-; exact K|intros K; exists l; auto]. Qed.

Ltac open_has := repeat match goal with
  | H : has (KNode _) (VNode _) |- _ => rewrite has_node in H
  | H : has (KNode ?o) _ |- _ => exfalso; destruct o; destruct H as (? & H & _); discriminate H
  | H : has (KWord _) (VWord _) |- _ => rewrite has_word in H
  | H : has (KTerms _) (VNode (NTerms _)) |- _ => apply has_terms in H; destruct H
  | H : has (KTerms _) _ |- _ => let l := fresh "l" in let E := fresh "E" in destruct H as (l & E & ? & ?); first [discriminate E|injection E as E; subst]
  | H : has (KRaw _ _) _ |- _ => let E := fresh "E" in destruct H as (? & ? & ? & ? & ? & E & ? & ? & ? & ? & ?); first [discriminate E|injection E as E; subst]
  | H : has (KFore _ _) _ |- _ => let E := fresh "E" in destruct H as (? & ? & ? & E & ? & ? & ?); first [discriminate E|injection E as E; subst]
  | H : has (KBar _) _ |- _ => let E := fresh "E" in destruct H as (? & ? & E & ? & ?); first [discriminate E|injection E as E; subst]
  | H : has (KForeBar _) _ |- _ => let E := fresh "E" in destruct H as (? & ? & E & ? & ?); first [discriminate E|injection E as E; subst]
  | H : has KConn _ |- _ => let E := fresh "E" in destruct H as (? & ? & E & ? & ?); first [discriminate E|injection E as E; subst]
  | H : has (KMo _) _ |- _ => let E := fresh "E" in destruct H as (? & ? & E & ? & ?); first [discriminate E|injection E as E; subst]
  | H : has KParen _ |- _ => let E := fresh "E" in destruct H as (? & ? & E & ? & ?); first [discriminate E|injection E as E; subst]
  | H : has (KLU _) _ |- _ => let E := fresh "E" in destruct H as (? & ? & E & ? & ?); first [discriminate E|injection E as E; subst]
  | H : has (KToned _) _ |- _ => let E := fresh "E" in destruct H as (? & E & ?); first [discriminate E|injection E as E; subst]
  | H : has KPlain _ |- _ => let E := fresh "E" in destruct H as (? & E & ?); first [discriminate E|injection E as E; subst]
  | H : has (KMark _) _ |- _ => let E := fresh "E" in destruct H as (? & E & ?); first [discriminate E|injection E as E; subst]
  end.
Ltac open_mods := repeat match goal with
  | E : nmod ?s (NTerms ?l) = Ok ?m |- _ => is_var m; let l' := fresh "l'" in destruct (mod_shape_terms s l m E) as [l' ->]
  | E : nmod ?s ?n = Ok ?m, H : has (KOpt (KNode None)) (VOpt ?s) |- _ => let A := fresh "A" in let B := fresh "B" in destruct (nmod_good s n m E H) as [A B]; cbn [n_terms] in A; clear E
  | E : wmod ?s ?w = Ok ?x, H : has (KOpt (KNode None)) (VOpt ?s) |- _ => let B := fresh "B" in pose proof (wmod_good s w x E H) as B; clear E
  | E : opt_word ?s = Ok ?x, H : has _ (VOpt ?s) |- _ => apply (opt_word_good s x E) in H; clear E
  | E : opt_node ?s = Ok ?x, H : has _ (VOpt ?s) |- _ => apply (opt_node_good s x E) in H; clear E
  | H : has (KOpt (KNode None)) (VOpt (Some (VNode ?n))) |- _ => pose proof (some_node n H); clear H
  | H : has (KOpt (KWord no_tone)) (VOpt (Some (VWord ?n))) |- _ => pose proof (some_word n H); clear H
  end.
Lemma plain_word s i j : plain_s s -> goodw [no_tone] (Wd s i j None).
Proof. intros P. apply goodw_eq. split; [|constructor]. left. symmetry. exact (plain_tone s P). Qed.
Lemma toned_word t s i j : toned_s t s -> goodw [t] (Wd s i j None).
Proof. intros P. apply goodw_eq. split; [|constructor]. left. symmetry. exact (toned_tone t s P). Qed.

Ltac open_args := repeat match goal with
  | H : Forall2 has _ (_ :: _) |- _ => inversion H; clear H; subst
  | H : Forall2 has _ [] |- _ => inversion H; clear H; subst
  end.
Ltac open_kind := repeat match goal with
  | |- has (kguard ?b _) _ => let B := fresh "B" in destruct b eqn:B; cbn [kguard]; [|exact I]
  | |- has (match ?k with _ => _ end) _ => is_var k; destruct k; try exact I
  end.

Lemma kact_ok a ks vs i j v : Forall2 has ks vs -> run_act a i j vs = Ok v -> has (kact a ks) v.
Proof.
  intros F E. unfold kact. destruct (existsb (keq KBot) ks) eqn:X.
  { exfalso. apply existsb_exists in X. destruct X as (k & J & Q). apply keq_eq in Q. subst k. clear E. induction F as [|k v0 ks vs K F IH]; [contradiction|]. destruct J as [->|J]; [exact K|auto]. }
  clear X. destruct a; try exact I; inva E.
  all: try match goal with H : end_predication _ _ _ = Ok _ |- _ => inva H end.
  all: open_args; try exact I; open_kind.
  all: repeat match goal with B : (_ && _)%bool = true |- _ => apply andb_prop in B; destruct B end.
  all: repeat match goal with
    | B : N.eqb _ _ = true |- _ => apply N.eqb_eq in B; subst
    | B : Nat.eqb _ _ = true |- _ => apply Nat.eqb_eq in B; subst
    | B : Nat.leb _ _ = true |- _ => apply Nat.leb_le in B
    end.
  all: open_has.
  all: repeat match goal with
    | B : knode ?r ?k = true, H : has ?k (VNode ?n) |- _ => apply (knode_good r k n B) in H; clear B
    | B : kmod ?k = true, H : has ?k ?n |- _ => apply (kmod_has k n B) in H; clear B
    | B : kword0 ?k = true, H : has ?k ?n |- _ => apply (kword0_has k n B) in H; clear B
    end.
  all: open_mods.
  all: try (apply has_node; intros r0 R0).
  all: try apply has_word.
  all: repeat match goal with H : forall r, inrole None r -> _ |- _ => specialize (fun r => H r I); cbn beta in H end.
  all: repeat match goal with H : forall r, inrole ?o r -> good r _, K : inrole ?o ?r |- _ => specialize (H r K) end.
  all: cbn [inrole] in *.
  all: try match goal with R : ?r0 = _ |- Forall _ (claims ?r0 _) => subst r0 | R : ?r0 = _ |- good ?r0 _ => subst r0 end.
  all: try assumption.
  all: unfold good in *.
  all: repeat match goal with
    | B : forall r, Forall _ (claims r ?n) -> Forall _ (claims r ?m), H : forall r, Forall _ (claims r ?n) |- _ => specialize (fun r => B r (H r)); cbn beta in B
    | B : forall r, Forall _ (claims r ?n) -> Forall _ (claims r ?m), H : Forall _ (claims ?r ?n) |- _ => specialize (B r H)
    end.
  all: repeat match goal with
    | H : forall r, Forall _ (claims r ?n), r0 : list N |- _ => assert_fails (is_var n); specialize (H r0)
    | H : forall r, Forall _ (claims r ?n) |- _ => assert_fails (is_var n); specialize (H vb)
    end.
  all: repeat match goal with H : Forall _ (claims ?r ?n) |- _ => assert_fails (is_var n); rewrite (claims_eq r n) in H; cbn [oc nc lc] in H end.
  all: try match goal with |- Forall _ (claims ?r ?n) => assert_fails (is_var n); rewrite (claims_eq r n); cbn [oc nc lc] end.
  all: fsplit; try assumption; eauto.
  all: try (match goal with |- Forall _ (fc ?ts ?w) => change (goodw ts w) end).
  all: eauto using plain_word, toned_word.
  all: try (constructor; fail).
  all: try match goal with
    | |- has (KTerms _) (VNode (NTerms _)) => apply has_terms; split; [cbn [length] in *; congruence|]; unfold ac_ in *; cbn [flat_map]; rewrite ?app_nil_r; fsplit; auto
    | |- all_hold (ac_ (_ :: _)) => unfold ac_ in *; cbn [flat_map]; fsplit; auto
    end.
  all: try (cbn [has]; repeat eexists; cbn [oc]; eauto; fail).
  - destruct H2 as (? & K & _). discriminate K.
  - exact (B vb H0).
  - apply (proj1 good_incl x4 vb (right_role r0)); [|exact H3]. unfold right_role, vb. destruct (existsb _ r0); intros z [<-|[]]; left; reflexivity.
  - cbn [n_terms claim_holds]. split; [exact H4|]. rewrite H4. split; assumption.
  - rewrite claims_eq. cbn [oc nc lc]. fsplit; assumption.
  - rewrite claims_eq. cbn [oc nc lc]. fsplit; assumption.
  - exists x, y, x2. repeat split; auto. apply has_node. intros r R. apply B. exact (H2 r R).
  - exists x, (NTerms l'), x2. repeat split; auto. apply has_terms. split; [exact A|exact (B vb H0)].
  - exists y, n. repeat split; auto. apply has_node. exact H3.
  - exists None, None, x, y, x2. repeat split; auto; try constructor. apply has_node. intros r R. apply B. exact (H2 r R).
  - exists None, None, x, (NTerms l'), x2. repeat split; auto; try constructor. apply has_terms. split; [exact A|exact (B vb H0)].
  - exists y, n. repeat split; auto. apply has_node. assumption.
  - exact (B vb H1).
  - exact (B vb H1).
  - apply has_word. apply plain_word. exact H.
  - exists EmptyString. split; [reflexivity|]. exists []. split; reflexivity.
  - eexists. split; [reflexivity|]. apply dotless_plain. exact H.
  - destruct (diacritic_toned t s y Ey) as (r & -> & V & T). eexists. split; [reflexivity|]. rewrite <- (sapp_nil_r (encode_rune r)). apply toned_one; assumption.
  - unfold add_tone in Ey. apply bind_ok in Ey. destruct Ey as (f & D & Ey). injection Ey as <-. destruct H as [H|H].
    + rewrite H in D. destruct (diacritic_toned t _ f D) as (r & -> & V & T). eexists. split; [reflexivity|]. apply toned_one; assumption.
    + unfold diacritic_of in D. rewrite H in D. discriminate D.
Qed.

(** ** The kinds of the rules *)

Lemma kinds_fit : kfits_all = true.
Proof. vm_compute. reflexivity. Qed.
Lemma text_kind : kmap_get role_kinds r_full_text = KNode None.
Proof. vm_compute. reflexivity. Qed.

Notation table := (kmap_get role_kinds).
Lemma rule_kind r : choices_ok (r_body (toaq r)) = true /\ ksub (fst (kinds table (r_body (toaq r)))) (table r) = true.
Proof.
  unfold toaq. destruct (PositiveMap.find r rule_map) as [ru|] eqn:F; [|split; [reflexivity|cbn; destruct (table r); reflexivity]].
  pose proof kinds_fit as K. unfold kfits_all in K. rewrite forallb_forall in K. apply PositiveMap.elements_correct in F. specialize (K _ F). apply andb_prop in K. exact K.
Qed.

Definition has_env (te : kenv) (en : env) : Prop := Forall2 (fun a b => fst a = fst b /\ has (snd a) (snd b)) te en.
Lemma get_has te en : has_env te en -> forall l k v, kget l te = Some k -> get_label l en = Some v -> has k v.
Proof.
  induction 1 as [|[l1 k1] [l2 v2] te en [A B] _ IH]; intros l k v G E; [discriminate|]. cbn in A. subst l2. cbn in G, E.
  destruct (Nat.eqb l l1); [injection G as <-; injection E as <-; exact B|eauto].
Qed.
Lemma gets_has te en : has_env te en -> forall ls ks vs, kgets ls te = Some ks -> get_labels ls en = Some vs -> Forall2 has ks vs.
Proof.
  intros H. induction ls as [|l ls IH]; intros ks vs G E; cbn in G, E; [injection G as <-; injection E as <-; constructor|].
  destruct (kget l te) as [k|] eqn:K; [|discriminate]. destruct (kgets ls te) as [ks'|]; [|discriminate]. injection G as <-.
  destruct (get_label l en) as [v|] eqn:L; [|discriminate]. destruct (get_labels ls en) as [vs'|]; [|discriminate]. injection E as <-.
  constructor; [eapply get_has; eauto|eauto].
Qed.

Section Sound.
Variable is_punct : N -> bool.
Variable text : string.
Notation vsem := (@vsem toaq is_punct text).
Notation vstar := (@vstar toaq is_punct text).

Lemma class_value rs pos p k err : @sem toaq is_punct text (EClass rs) pos (Some (p, k)) err -> has (class_kind rs) (VStr (slice text pos p)).
Proof.
  intros S. destruct (existsb (N.eqb rune_error) rs) eqn:X; [unfold class_kind; destruct rs; [discriminate X|]; cbv zeta; rewrite X; exact I|]. apply class_has.
  assert (F : forallb (fun r => negb (N.eqb r rune_error)) rs = true).
  { apply forallb_forall. intros r J. destruct (N.eqb_spec r rune_error) as [->|]; [|reflexivity]. exfalso.
    enough (existsb (N.eqb rune_error) rs = true) by congruence. apply existsb_exists. exists rune_error. split; [exact J|apply N.eqb_refl]. }
  destruct (class_val is_punct text false types_any fits_any (fun H : false = true => match Bool.diff_false_true H with end) rs pos p k err S F) as (s & E & J). injection E as <-.
  apply in_map_iff in J. destruct J as (r & E & J). apply filter_In in J. exists r. split; [apply J|]. symmetry. exact E.
Qed.

Definition kout (e : expr) (o : aout (val * env)) : Prop :=
  choices_ok e = true -> match o with AOk _ (v, en) => has (fst (kinds table e)) v /\ has_env (snd (kinds table e)) en | _ => True end.

Lemma kstuck e o : stuck o = true -> kout e o.
Proof. intros S _. destruct o; [exact I|exact I|discriminate]. Qed.

Lemma kinds_sem :
  (forall e pos o, vsem e pos o -> kout e o) /\
  (forall e pos v o, vstar e pos v o -> choices_ok e = true -> has (kplus (fst (kinds table e))) v ->
    match o with AOk p (v', en) => has (kplus (fst (kinds table e))) v' /\ en = [] | _ => True end).
Proof.
  assert (N : has_env [] []) by constructor.
  apply vsem_star_ind; try (intros; apply kstuck; first [assumption|reflexivity]).
  - intros e pos p k err T S _. destruct e; try discriminate; (split; [|exact N]); try exact I. exact (class_value _ _ _ _ _ S).
  - intros r pos p k err v en _ _ IH _. destruct (rule_kind r) as [C K]. split; [|exact N]. exact (ksub_ok _ _ _ K (proj1 (IH C))).
  - intros a b pos p1 v1 en1 p2 v2 en2 _ IA _ IB X. cbn in X. apply andb_prop in X. destruct X as [X Y]. specialize (IA X). specialize (IB Y). cbn [kinds].
    destruct (kinds table a) as [k1 e1]. destruct (kinds table b) as [k2 e2]. cbn [fst snd] in *. split; [apply kcat_ok; tauto|]. apply Forall2_app; tauto.
  - intros a b pos o _ IH _ X. cbn in X. cbn [kinds]. unfold kout in IH.
    destruct (kinds table a) as [k1 [|]]; [|discriminate]. destruct (kinds table b) as [k2 [|]]; [|discriminate]. apply andb_prop in X. specialize (IH (proj1 X)).
    destruct o as [| |p [v en]]; try exact I. cbn [fst snd] in *. split; [apply (proj1 (kjoin_ok k1 k2 v)); tauto|tauto].
  - intros a b pos o _ _ _ IH X. cbn in X. cbn [kinds]. unfold kout in IH.
    destruct (kinds table a) as [k1 [|]]; [|discriminate]. destruct (kinds table b) as [k2 [|]]; [|discriminate]. apply andb_prop in X. specialize (IH (proj2 X)).
    destruct o as [| |p [v en]]; try exact I. cbn [fst snd] in *. split; [apply (proj2 (kjoin_ok k1 k2 v)); tauto|tauto].
  - intros e pos p1 v1 en1 o _ IH _ IS X. destruct (IH X) as [A _]. specialize (IS X (kplus_first _ _ A)). destruct o as [| |p [v en]]; try exact I.
    destruct IS as [V ->]. split; [exact V|exact N].
  - intros e pos p v en _ IH X. split; [|exact N]. right. exists v. split; [reflexivity|]. exact (proj1 (IH X)).
  - intros e pos _ _ X. split; [left; reflexivity|exact N].
  - intros e pos p v _ _ _. split; [|exact N]. exists ""%string. split; [reflexivity|]. exists []. split; reflexivity.
  - intros e pos _ _ _. split; [|exact N]. exists ""%string. split; [reflexivity|]. exists []. split; reflexivity.
  - intros e pos o _ IH X. exact (IH X).
  - intros l e pos p v en _ IH X. destruct (IH X) as [A _]. split; [exact A|]. constructor; [split; [reflexivity|exact A]|constructor].
  - intros a args e pos p v en v' _ IH R X. destruct (IH X) as [_ C]. cbn [kinds]. unfold run_action in R. destruct (get_labels args en) as [vs|] eqn:L; [|discriminate].
    destruct (kgets args (snd (kinds table e))) as [ks|] eqn:G; [|split; [exact I|exact N]]. split; [|exact N]. eapply kact_ok; [|exact R]. eapply gets_has; eauto.
  - intros e pos v _ _ X V. split; [exact V|reflexivity].
  - intros. exact I.
  - intros e pos v p1 v1 en1 o _ IH _ IS X V. apply IS; [exact X|]. apply kplus_next; [exact V|]. exact (proj1 (IH X)).
Qed.
End Sound.

Lemma text_claims is_punct text p n : reach is_punct text p -> fst (text_of is_punct p) = Ok (Got (Some n)) ->
  forall c, In c (claims [verb_t] n) -> claim_holds c.
Proof.
  intros R E. apply (proj1 (text_sem _ _ p R)) in E. destruct E as (q & V).
  destruct (proj1 (kinds_sem is_punct text) _ _ _ V eq_refl) as [H _]. cbn [kinds fst] in H. rewrite text_kind in H. destruct H as (m & E & H). injection E as <-.
  specialize (H vb). unfold good in H. rewrite Forall_forall in H. exact H.
Qed.

Lemma text_tones is_punct text p n : reach is_punct text p -> fst (text_of is_punct p) = Ok (Got (Some n)) ->
  forall tones s, In (Said tones s) (claims [verb_t] n) -> In (tone s) tones.
Proof. intros R E tones s I. exact (text_claims _ _ _ _ R E _ I). Qed.
Lemma text_lengths is_punct text p n : reach is_punct text p -> fst (text_of is_punct p) = Ok (Got (Some n)) ->
  forall a b, In (Lengths a b) (claims [verb_t] n) -> a = b /\ 2 <= a <= 5.
Proof. intros R E a b I. exact (text_claims _ _ _ _ R E _ I). Qed.

Definition roles_text : string := "hỉo ru kảq pỏ jí ga to ru jí súq to mãı ru chũq nìe ru lùa máo bǔaq hûaq jí ".
Lemma roles_case : exists n, fst (text_of ascii_punct (new_parser roles_text)) = Ok (Got (Some n)) /\
  claims [verb_t] n =
    [Said [no_tone] "ru"; Said [verb_t] "hỉo"; Said [verb_t] "kảq"; Said [verb_t] "pỏ"; Said [arg_t] "jí"; Said [no_tone] "ga";
     Lengths 2 2; Said [no_tone] "to"; Said [no_tone] "ru"; Said [arg_t] "jí"; Said [arg_t] "súq"; Said [no_tone] "to";
     Said [no_tone] "ru"; Said [adverb_t] "mãı"; Said [adverb_t] "chũq"; Said [no_tone] "ru"; Said [prep_t] "nìe"; Said [verb_t; prep_t] "lùa";
     Said [arg_t] "máo"; Said [relative_t] "bǔaq"; Said [content_t] "hûaq"; Said [arg_t] "jí"].
Proof.
  destruct (fst (text_of ascii_punct (new_parser roles_text))) as [[[n|]|]| |] eqn:E; try (exfalso; revert E; vm_compute; discriminate).
  exists n. split; [reflexivity|]. revert E. vm_compute. intros E. injection E as <-. reflexivity.
Qed.
