(** The trees of Text do not depend on the case of letters. *)

From Coq Require Import String Ascii NArith ZArith PArith List Bool Lia Arith FMapPositive.
From Verif Require Import Base Utf8 Utf8Facts PegSyntax Grammar Peg PegToaq PegFacts Tone Ast AstInd ModFacts Action Loc Parser ParserSpec ApiFacts CaseFold CaseFacts CaseText CaseAlike.
Import ListNotations.
Open Scope nat_scope.

(** ** Values *)

Fixpoint low_val (v : val) : val :=
  match v with
  | VStr s => VStr (low 0 s)
  | VWord w => VWord (low_word w)
  | VNode n => VNode (low_node n)
  | VOpt o => VOpt (option_map low_val o)
  | VBar ru r => VBar (low_word ru) (low_node r)
  | VForeBar to1 r => VForeBar (low_word to1) (low_node r)
  | VFore to1 l r => VFore (low_word to1) (low_node l) (low_node r)
  | VConn to0 ru => VConn (low_word to0) (low_word ru)
  | VMo mo d => VMo (low_word mo) (map low_node d)
  | VParen kio d => VParen (low_word kio) (map low_node d)
  | VUnit => VUnit
  end.
Fixpoint vlike (v v' : val) : Prop :=
  match v, v' with
  | VStr s, VStr s' => alike s s'
  | VOpt (Some w), VOpt (Some w') => vlike w w'
  | _, _ => low_val v = low_val v'
  end.
Fixpoint vlike_low (v v' : val) {struct v} : vlike v v' -> low_val v = low_val v'.
Proof.
  destruct v as [s|w|n|[w|]|ru r|to1 r|to1 l r|to0 ru|mo d|kio d|], v' as [s'|w'|n'|[w'|]|ru' r'|to1' r'|to1' l' r'|to0' ru'|mo' d'|kio' d'|]; cbn; intros H; try exact H.
  - f_equal. apply alike_low, H.
  - f_equal. f_equal. apply vlike_low, H.
Qed.
Lemma list_low l l' : Forall2 vlike l l' -> map low_val l = map low_val l'.
Proof. induction 1; [reflexivity|]. cbn. f_equal; [apply vlike_low|]; assumption. Qed.

Definition map_res {A} (f : A -> A) (x : res A) : res A := match x with Ok a => Ok (f a) | Panic p => Panic p | NoFuel => NoFuel end.

Lemma map_last_low f f' l : (forall x, In x l -> f' (low_node x) = map_res low_node (f x)) ->
  map_last f' (map low_node l) = map_res (map low_node) (map_last f l).
Proof.
  induction l as [|x l IH]; intros H; [reflexivity|]. cbn [map map_last]. destruct l as [|y l].
  - cbn. rewrite H by (left; reflexivity). destruct (f x); reflexivity.
  - cbn [map]. change (low_node y :: map low_node l) with (map low_node (y :: l)). rewrite IH by (intros; apply H; right; assumption).
    destruct (map_last f (y :: l)); reflexivity.
Qed.
Lemma low_sentence n : is_sentence (low_node n) = is_sentence n.
Proof. destruct n; reflexivity. Qed.
Lemma low_fragment n : is_fragment (low_node n) = is_fragment n.
Proof. destruct n; reflexivity. Qed.

Definition node_goal m n := mod_node (option_map low_node m) (low_node n) = map_res low_node (mod_node m n).
Definition word_goal m w := mod_word (option_map low_node m) (low_word w) = map_res low_word (mod_word m w).
Lemma disc_low m d : Forall (node_goal m) d -> discourse_mod (mod_node (option_map low_node m)) (map low_node d) = map_res (map low_node) (discourse_mod (mod_node m) d).
Proof.
  intros F. rewrite Forall_forall in F. unfold discourse_mod. apply map_last_low. intros x I. rewrite low_sentence, low_fragment. destruct (is_sentence x || is_fragment x); [apply F, I|reflexivity].
Qed.
Lemma terms_low m d : Forall (node_goal m) d -> terms_mod (option_map low_node m) (mod_node (option_map low_node m)) (map low_node d) = map_res (map low_node) (terms_mod m (mod_node m) d).
Proof.
  intros F. rewrite Forall_forall in F. unfold terms_mod. destruct m as [m|]; [|reflexivity]. cbn [option_map]. apply map_last_low. exact F.
Qed.
Ltac use := repeat match goal with
  | H : node_goal _ _ |- _ => unfold node_goal in H
  | H : word_goal _ _ |- _ => unfold word_goal in H
  end.
Ltac step := match goal with
  | H : mod_node _ (low_node ?n) = _ |- context [mod_node _ (low_node ?n)] => rewrite H; destruct (mod_node _ n); reflexivity
  | H : mod_word _ (low_word ?n) = _ |- context [mod_word _ (low_word ?n)] => rewrite H; destruct (mod_word _ n); reflexivity
  | H : Forall (node_goal _) ?d |- context [discourse_mod _ (map low_node ?d)] => rewrite (disc_low _ d H); destruct (discourse_mod _ d); reflexivity
  | H : Forall (node_goal _) ?d |- context [terms_mod _ _ (map low_node ?d)] => rewrite (terms_low _ d H); destruct (terms_mod _ _ d); reflexivity
  end.
Lemma mod_word_wd m t s e wm : mod_word m (Wd t s e wm) = match m with None => Ok (Wd t s e wm) | Some _ => match wm with None => Ok (Wd t s e m) | Some n => bind (mod_node m n) (fun n' => Ok (Wd t s e (Some n'))) end end.
Proof. destruct m, wm; reflexivity. Qed.
Lemma mod_low m : (forall n, node_goal m n) /\ (forall w, word_goal m w).
Proof.
  assert (W : forall t s e x, onO (node_goal m) x -> word_goal m (Wd t s e x)).
  { intros t s e x H. unfold word_goal. cbn [low_word]. rewrite !mod_word_wd. destruct m as [m'|]; [|reflexivity]. cbn [option_map]. destruct x as [x|]; [|reflexivity].
    cbn [option_map]. cbn in H. unfold node_goal in H. cbn [option_map] in H. rewrite H. destruct (mod_node (Some m') x); reflexivity. }
  split; [apply (node_ind2 (node_goal m) (word_goal m))|apply (word_ind2 (node_goal m) (word_goal m))]; intros; try (apply W; assumption); unfold node_goal; cbn [low_node];
    repeat match goal with
    | H : onO _ ?o |- _ => destruct o; cbn [onO] in H; cbn [option_map]
    end; use; match goal with |- mod_node ?a ?n = map_res _ (mod_node ?b ?k) => rewrite (mod_node_eq a n), (mod_node_eq b k) end; cbv beta iota; step.
Qed.
Lemma nmod_low s n : nmod (option_map low_val s) (low_node n) = map_res low_node (nmod s n).
Proof.
  destruct s as [[]|]; try reflexivity; cbn [option_map low_val nmod].
  - exact (proj1 (mod_low (Some n0)) n).
  - exact (proj1 (mod_low None) n).
Qed.
Lemma wmod_low s n : wmod (option_map low_val s) (low_word n) = map_res low_word (wmod s n).
Proof.
  destruct s as [[]|]; try reflexivity; cbn [option_map low_val wmod].
  - exact (proj2 (mod_low (Some n0)) n).
  - exact (proj2 (mod_low None) n).
Qed.
Definition map_resO {A} (f : A -> A) (x : res (option A)) : res (option A) := match x with Ok a => Ok (option_map f a) | Panic p => Panic p | NoFuel => NoFuel end.
Lemma opt_word_low o : opt_word (option_map low_val o) = map_resO low_word (opt_word o).
Proof. destruct o as [[]|]; reflexivity. Qed.
Lemma opt_node_low o : opt_node (option_map low_val o) = map_resO low_node (opt_node o).
Proof. destruct o as [[]|]; reflexivity. Qed.
Lemma end_low p s na : end_predication (low_node p) (option_map low_val s) (option_map low_val na) = map_res low_node (end_predication p s na).
Proof.
  unfold end_predication. rewrite nmod_low. destruct (nmod s p) as [x|q|]; [|reflexivity|reflexivity]. cbn [map_res bind]. rewrite opt_word_low.
  destruct (opt_word na) as [y|q|]; [|reflexivity|reflexivity]. cbn [map_resO bind]. destruct x; reflexivity.
Qed.

Definition spelling (a : act) : bool :=
  match a with AId | AEmpty | ADotless | ADiacritic _ | AAddTone => true | _ => false end.
Lemma disc_node d : NDiscourse (map low_node d) = low_node (NDiscourse d).
Proof. reflexivity. Qed.
Lemma act_low a i j args : spelling a = false -> run_act a i j (map low_val args) = map_res low_val (run_act a i j args).
Proof.
  intros S.
  destruct a; try discriminate S; clear S; unfold run_act;
  repeat match goal with
  | |- ill_typed = map_res _ ill_typed => reflexivity
  | |- runtime_panic = map_res _ runtime_panic => reflexivity
  | |- Panic _ = map_res _ (Panic _) => reflexivity
  | |- NoFuel = map_res _ NoFuel => reflexivity
  | |- Ok _ = map_res _ (Ok _) => reflexivity
  | |- _ = map_res _ (bind (nmod ?s (NDiscourse ?d)) _) => change (NDiscourse (map low_node d)) with (low_node (NDiscourse d)); rewrite nmod_low; destruct (nmod s (NDiscourse d)); cbn [bind map_res]
  | |- _ = map_res _ (bind (nmod ?s ?n) _) => rewrite nmod_low; destruct (nmod s n); cbn [bind map_res]
  | |- _ = map_res _ (bind (wmod ?s (Wd ?w ?i ?j None)) _) => change (Wd (low 0 w) i j None) with (low_word (Wd w i j None)); rewrite wmod_low; destruct (wmod s (Wd w i j None)); cbn [bind map_res]
  | |- _ = map_res _ (bind (wmod ?s ?n) _) => rewrite wmod_low; destruct (wmod s n); cbn [bind map_res]
  | |- _ = map_res _ (bind (opt_word ?s) _) => rewrite opt_word_low; destruct (opt_word s); cbn [bind map_resO]
  | |- _ = map_res _ (bind (opt_node ?s) _) => rewrite opt_node_low; destruct (opt_node s); cbn [bind map_resO]
  | |- _ = map_res _ (bind (end_predication ?p ?s ?n) _) => rewrite end_low; destruct (end_predication p s n); cbn [bind map_res]
  | |- _ = map_res _ (match ?x with _ => _ end) => is_var x; destruct x; cbn [map low_val option_map low_node]
  | |- Panic _ = Panic _ => reflexivity
  | |- NoFuel = NoFuel => reflexivity
  | |- Ok _ = Ok _ => unfold prepend; cbn [low_val low_node map option_map]; rewrite ?map_app; reflexivity
  end.
Qed.

Definition solid (v : val) : bool := match v with VStr _ | VOpt _ => false | _ => true end.
Definition solid_res (x : res val) : Prop := match x with Ok v => solid v = true | _ => True end.
Lemma act_solid a i j args : spelling a = false -> solid_res (run_act a i j args).
Proof.
  intros S.
  destruct a; try discriminate S; clear S; unfold run_act;
  repeat first
    [ exact I | reflexivity
    | progress cbn [bind]
    | match goal with
      | |- solid_res (bind ?x _) => destruct x
      | |- solid_res (match ?x with _ => _ end) => destruct x
      end ].
Qed.
Lemma solid_like v v' : solid v = true -> low_val v = low_val v' -> vlike v v'.
Proof. destruct v; intros S E; try discriminate S; exact E. Qed.
Lemma acts_like a i j args args' : Forall2 vlike args args' -> like_res vlike (run_act a i j args) (run_act a i j args').
Proof.
  intros F. destruct (spelling a) eqn:S.
  - assert (K : forall s x, vlike (VStr s) x -> exists s', x = VStr s' /\ alike s s') by (intros s x H; destruct x; cbn in H; try discriminate H; eauto).
    assert (K' : forall s x, vlike x (VStr s) -> exists s', x = VStr s' /\ alike s' s) by (intros s x H; destruct x as [| | |[|]| | | | | | |]; cbn in H; try discriminate H; eauto).
    destruct a; try discriminate S; unfold run_act.
    + destruct F as [|v v' l l' H [|? ? ? ? ? ?]]; try reflexivity. exact H.
    + destruct F as [|v v' l l' H F]; [exact KNone|reflexivity].
    + destruct F as [|v v' ? ? H [|w w' ? ? H2 F]].
      * reflexivity.
      * destruct v; try (destruct v'; try reflexivity; destruct (K' _ _ H) as (? & E & _); discriminate E).
        destruct (K _ _ H) as (s' & -> & A). cbn. apply dotless_alike, A.
      * destruct v, v'; reflexivity.
    + destruct F as [|v v' ? ? H [|w w' ? ? H2 F]].
      * reflexivity.
      * destruct v; try (destruct v'; try reflexivity; destruct (K' _ _ H) as (? & E & _); discriminate E).
        destruct (K _ _ H) as (s' & -> & A). pose proof (diacritic_alike t _ _ A) as D. destruct (diacritic_of t s), (diacritic_of t s'); cbn in D |- *; auto.
      * destruct v, v'; reflexivity.
    + destruct F as [|v v' ? ? H [|w w' ? ? H2 [|x x' ? ? H3 F]]].
      * reflexivity.
      * destruct v, v'; reflexivity.
      * destruct v; try (destruct v'; try reflexivity; destruct (K' _ _ H) as (? & E & _); discriminate E).
        destruct (K _ _ H) as (s' & -> & A). destruct w; try (destruct w'; try reflexivity; destruct (K' _ _ H2) as (? & E & _); discriminate E).
        destruct (K _ _ H2) as (z' & -> & B). pose proof (add_alike _ _ _ _ A B) as D. destruct (add_tone s s0), (add_tone s' z'); cbn in D |- *; auto.
      * destruct v, v'; try reflexivity; destruct w, w'; reflexivity.
  - pose proof (act_low a i j args S) as L. pose proof (act_low a i j args' S) as L'. rewrite (list_low _ _ F), L' in L.
    pose proof (act_solid a i j args S) as Z. destruct (run_act a i j args) as [v|q|], (run_act a i j args') as [v'|q'|]; cbn in L |- *; try discriminate L; auto.
    + injection L as L. apply solid_like; [exact Z|]. symmetry. exact L.
    + injection L as L. auto.
Qed.
Lemma vcat_like a b a' b' : vlike a a' -> vlike b b' -> vlike (vcat a b) (vcat a' b').
Proof.
  intros H K. destruct a as [s|w|n|[w|]|ru r|to1 r|to1 l r|to0 ru|mo d|kio d|], a' as [s'|w'|n'|[w'|]|ru' r'|to1' r'|to1' l' r'|to0' ru'|mo' d'|kio' d'|]; cbn in H |- *; try discriminate H; try reflexivity.
  destruct b as [z|?|?|[?|]|? ?|? ?|? ? ?|? ?|? ?|? ?|], b' as [z'|?|?|[?|]|? ?|? ?|? ? ?|? ?|? ?|? ?|]; cbn in K |- *; try discriminate K; try reflexivity. apply alike_app; assumption.
Qed.
Lemma vplus0_like a a' : vlike a a' -> vlike (vplus0 a) (vplus0 a').
Proof.
  intros H. destruct a as [s|w|n|[w|]|ru r|to1 r|to1 l r|to0 ru|mo d|kio d|], a' as [s'|w'|n'|[w'|]|ru' r'|to1' r'|to1' l' r'|to0' ru'|mo' d'|kio' d'|]; cbn in H |- *; try discriminate H; try reflexivity; [exact H|].
  injection H as ->. reflexivity.
Qed.
Lemma vplus_like a b a' b' : vlike a a' -> vlike b b' -> vlike (vplus a b) (vplus a' b').
Proof.
  intros H K. destruct a as [s|w|n|[w|]|ru r|to1 r|to1 l r|to0 ru|mo d|kio d|], a' as [s'|w'|n'|[w'|]|ru' r'|to1' r'|to1' l' r'|to0' ru'|mo' d'|kio' d'|]; cbn in H; try discriminate H; try reflexivity.
  - destruct b as [z|?|?|[?|]|? ?|? ?|? ? ?|? ?|? ?|? ?|], b' as [z'|?|?|[?|]|? ?|? ?|? ? ?|? ?|? ?|? ?|]; cbn in K |- *; try discriminate K; try reflexivity. apply alike_app; assumption.
  - injection H as H. destruct n, n'; try discriminate H; try reflexivity. injection H as H.
    destruct b as [z|?|?|[?|]|? ?|? ?|? ? ?|? ?|? ?|? ?|], b' as [z'|?|?|[?|]|? ?|? ?|? ? ?|? ?|? ?|? ?|]; cbn in K |- *; try discriminate K; try reflexivity.
    injection K as K. rewrite !map_app, H. cbn. rewrite K. reflexivity.
Qed.

(** ** The pass *)

Definition enlike (a b : env) : Prop := Forall2 (fun x y => fst x = fst y /\ vlike (snd x) (snd y)) a b.
Lemma get_like l a b : enlike a b -> match get_label l a, get_label l b with Some v, Some v' => vlike v v' | None, None => True | _, _ => False end.
Proof.
  induction 1 as [|[k v] [k' v'] a b [E V] F IH]; [exact I|]. cbn in E, V. subst k'. cbn. destruct (Nat.eqb l k); [exact V|exact IH].
Qed.
Lemma gets_like ls a b : enlike a b -> match get_labels ls a, get_labels ls b with Some v, Some v' => Forall2 vlike v v' | None, None => True | _, _ => False end.
Proof.
  intros F. induction ls as [|l ls IH]; [constructor|]. cbn. pose proof (get_like l _ _ F) as G.
  destruct (get_label l a), (get_label l b); try contradiction; [|exact I]. destruct (get_labels ls a), (get_labels ls b); try contradiction; [|exact I]. constructor; assumption.
Qed.
Lemma run_like a args i j en en' : enlike en en' -> like_res vlike (run_action a args i j en) (run_action a args i j en').
Proof.
  intros F. unfold run_action. pose proof (gets_like args _ _ F) as G. destruct (get_labels args en), (get_labels args en'); try contradiction; [apply acts_like, G|reflexivity].
Qed.

Definition made (a b : ast_) : Prop :=
  a_next a = a_next b /\ a_hits a = a_hits b /\
  forall r pos, match m2_get (a_map a) r pos, m2_get (a_map b) r pos with
    | Some (i, v), Some (i', v') => i = i' /\ vlike v v'
    | None, None => True
    | _, _ => False
    end.
Definition out_like {A} (R : A -> A -> Prop) (x y : option (aout A * ast_)) : Prop :=
  match x, y with
  | Some (AFail, s), Some (AFail, s') => made s s'
  | Some (APanic p, s), Some (APanic p', s') => p = p' /\ made s s'
  | Some (AOk p v, s), Some (AOk p' v', s') => p = p' /\ R v v' /\ made s s'
  | None, None => True
  | _, _ => False
  end.
Definition elike (x y : val * env) : Prop := vlike (fst x) (fst y) /\ enlike (snd x) (snd y).

Section Pass.
Variable is_punct : N -> bool.
Hypothesis Hp : punct_no_letter is_punct.
Variables t u : string.
Hypothesis Hs : small t = small u.
Notation G := toaq.

Lemma leaf_like i j st st' : made st st' -> out_like elike (leaf_ok t i j st) (leaf_ok u i j st').
Proof.
  intros M. split; [reflexivity|]. split; [|exact M]. split; [|constructor]. apply alike_small. eapply slice_same; eauto.
Qed.
Ltac both H := match type of H with out_like _ ?x ?y =>
  destruct x as [[[|?q|?p [?v ?en]] ?s1]|], y as [[[|?q'|?p' [?v' ?en']] ?s1']|]; cbn in H; try contradiction;
  [ |destruct H as [-> ?M]|destruct H as (-> & [?V ?E] & ?M); cbn [fst snd] in *| ] end.
Lemma ac_same c1 c2 : (forall r pos s s', made s s' -> out_like vlike (c1 r pos s) (c2 r pos s')) ->
  forall e, expr_ok e = true -> forall pos s s', made s s' -> out_like elike (ac is_punct t c1 e pos s) (ac is_punct u c2 e pos s').
Proof.
  intros C. induction e; cbn [expr_ok]; intros K pos st st' I; cbn [ac].
  - rewrite (lit_same t u Hs s pos K). destruct (has_lit u s pos); [apply leaf_like|]; exact I.
  - pose proof (class_same t u Hs rs pos K) as M. destruct (next_same t u Hs pos) as [_ W]. destruct (next t pos) as [r w], (next u pos) as [r' w']. cbn [fst snd] in *. rewrite M, W.
    destruct (mem_rune r' rs); [apply leaf_like|]; exact I.
  - rewrite (any_same t u Hs). destruct (next_same t u Hs pos) as [_ ->]. destruct (any_ok u pos); [apply leaf_like|]; exact I.
  - rewrite (any_same t u Hs). pose proof (punct_same is_punct Hp t u Hs pos) as P. destruct (next_same t u Hs pos) as [_ W]. destruct (next t pos) as [r w], (next u pos) as [r' w']. cbn [fst snd] in *. rewrite P, W.
    destruct (any_ok u pos); [|exact I]. destruct (is_punct r'); [apply leaf_like|]; exact I.
  - specialize (C r pos st st' I). destruct (c1 r pos st) as [[[|q|p v] s1]|], (c2 r pos st') as [[[|q'|p' v'] s1']|]; cbn in C; try contradiction; try exact C.
    destruct C as (-> & V & M). split; [reflexivity|]. split; [|exact M]. split; [exact V|constructor].
  - apply andb_prop in K. destruct K as [K1 K2]. specialize (IHe1 K1 pos st st' I). both IHe1; auto; [split; auto|].
    specialize (IHe2 K2 p' s1 s1' M). both IHe2; auto; [split; auto|]. split; [reflexivity|]. split; [|exact M0]. split; cbn [fst snd]; [apply vcat_like; assumption|apply Forall2_app; assumption].
  - apply andb_prop in K. destruct K as [K1 K2]. specialize (IHe1 K1 pos st st' I). both IHe1; [exact (IHe2 K2 pos s1 s1' IHe1)|split; auto|split; [reflexivity|]; split; [split|]; assumption|exact Logic.I].
  - assert (B := IHe K pos st st' I). both B; [exact B|split; auto| |exact Logic.I]. rewrite (len_same t u Hs).
    pose proof (vplus0_like _ _ V) as V0. revert V0. generalize (vplus0 v) (vplus0 v'). intros x x' V0. clear V E v v' en en'.
    assert (B := IHe K p' s1 s1' M). both B; [|split; auto| |exact Logic.I].
    { split; [reflexivity|]. split; [|exact B]. split; [exact V0|constructor]. }
    pose proof (vplus_like _ _ _ _ V0 V) as V2. revert V2. generalize (vplus x v) (vplus x' v') (String.length u). clear x x' V0 V E v v' en en'. intros x x' n V0.
    rename M into M1, M0 into M. clear M1. clear dependent s1. clear dependent s1'. rename s0 into s1, s1'0 into s1'. rename p'0 into p1.
    revert p1 x x' s1 s1' V0 M. induction n as [|n IH]; intros p x x' s1 s1' V0 M; [exact Logic.I|].
    assert (B := IHe K p s1 s1' M). both B; [|split; auto| |exact Logic.I].
    + split; [reflexivity|]. split; [|exact B]. split; [exact V0|constructor].
    + apply IH; [apply vplus_like; assumption|assumption].
  - specialize (IHe K pos st st' I). both IHe; [|split; auto| |exact Logic.I].
    + split; [reflexivity|]. split; [|exact IHe]. split; [reflexivity|constructor].
    + split; [reflexivity|]. split; [|exact M]. split; [exact V|constructor].
  - specialize (IHe K pos st st' I). both IHe; [exact IHe|split; auto| |exact Logic.I]. split; [reflexivity|]. split; [|exact M]. split; constructor.
  - specialize (IHe K pos st st' I). both IHe; [|split; auto|exact M|exact Logic.I]. split; [reflexivity|]. split; [|exact IHe]. split; constructor.
  - exact (IHe K pos st st' I).
  - specialize (IHe K pos st st' I). both IHe; [exact IHe|split; auto| |exact Logic.I]. split; [reflexivity|]. split; [|exact M]. split; [exact V|]. constructor; [split; [reflexivity|exact V]|constructor].
  - specialize (IHe K pos st st' I). both IHe; [exact IHe|split; auto| |exact Logic.I].
    pose proof (run_like a args pos p' _ _ E) as R. destruct (run_action a args pos p' en) as [x|q|], (run_action a args pos p' en') as [x'|q'|]; cbn in R; try contradiction.
    + split; [reflexivity|]. split; [|exact M]. split; [exact R|constructor].
    + split; assumption.
    + exact Logic.I.
Qed.
Lemma made_set a b r pos v v' : made a b -> vlike v v' ->
  made (Ast (m2_set (a_map a) r pos (a_next a, v)) (N.succ (a_next a)) (a_hits a)) (Ast (m2_set (a_map b) r pos (a_next b, v')) (N.succ (a_next b)) (a_hits b)).
Proof.
  intros (E1 & E2 & M) V. split; [cbn; congruence|]. split; [exact E2|]. intros r' pos'. cbn [a_map].
  destruct (Pos.eq_dec r r') as [<-|Nr]; [destruct (Nat.eq_dec pos pos') as [<-|Np]|].
  - rewrite !m2_gss. split; [exact E1|exact V].
  - rewrite !m2_gso by congruence. apply M.
  - rewrite !m2_gso by congruence. apply M.
Qed.
Lemma action_same ds fuel : forall r start s s', made s s' -> out_like vlike (action_of G is_punct t ds fuel r start s) (action_of G is_punct u ds fuel r start s').
Proof.
  induction fuel as [|f IH]; intros r start s s' I; [exact Logic.I|]. cbn [action_of].
  destruct (fst (delta ds r start) <? 0)%Z; [exact I|]. pose proof I as (E1 & E2 & M). specialize (M r start).
  destruct (m2_get (a_map s) r start) as [[i v]|], (m2_get (a_map s') r start) as [[i' v']|]; try contradiction.
  - destruct M as [-> V]. split; [reflexivity|]. split; [exact V|]. split; [exact E1|]. split; [cbn; congruence|]. exact (proj2 (proj2 I)).
  - pose proof (ac_same _ _ IH _ (rule_ok r) start s s' I) as B. both B; [exact B|split; auto| |exact Logic.I].
    split; [reflexivity|]. split; [exact V|]. apply made_set; assumption.
Qed.
End Pass.
