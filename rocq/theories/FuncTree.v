(** The function words of a parsed tree belong to the groups of their places. *)

From Coq Require Import String Ascii NArith ZArith PArith List Bool FMapPositive Lia.
From Verif Require Import Base Utf8 Utf8Facts Tone PegSyntax Grammar Peg PegToaq PegSpec PegFacts PegToaqFacts Ast AstInd ModFacts ModSpec ModWords
  Action ActionSpec Parser ActionFacts PegText ParserSpec ApiFacts TileSpec SpellSpec TileFacts TileApi SpellFacts WordShape LogicWords FuncWords FuncSym FuncSound.
Import ListNotations.
Open Scope nat_scope.
Open Scope list_scope.
Open Scope res_scope.

(** ** Modifiers *)

Definition wfw (w : word) : list (group * string) := match w with Wd _ _ _ (Some m) => function_words m | _ => [] end.
Definition fw (g : group) (w : word) : list (group * string) := (g, w_t w) :: wfw w.
Definition ofw (g : group) (w : option word) : list (group * string) := match w with Some w => fw g w | None => [] end.
Definition mfw (m : option node) : list (group * string) := match m with Some n => function_words n | None => [] end.
Definition tfw (m : option (list node)) : list (group * string) := match m with Some l => flat_map function_words l | None => [] end.

Lemma function_words_eq n : function_words n =
  match n with
  | NText ld d => mfw ld ++ flat_map function_words d
  | NDiscourse d | NTerms d => flat_map function_words d
  | NSentence je st da => ofw GKeo je ++ function_words st ++ ofw GDa da
  | NPrenex ts bi => flat_map function_words ts ++ fw GBi bi
  | NPrenexStmt p st => function_words p ++ function_words st
  | NPredication p ts na => function_words p ++ tfw ts ++ ofw GNa na
  | NPrefixed mu p => fw GMu mu ++ function_words p
  | NSerial l r | NPrep l r => function_words l ++ function_words r
  | NWordPredicate w | NSpace w | NWord w => wfw w
  | NMi mi ga p => fw GMi mi ++ function_words p ++ ofw GGa ga
  | NPo po ga a => fw GPo po ++ function_words a ++ ofw GGa ga
  | NMo mo teo d => fw GMo mo ++ flat_map function_words d ++ fw GTeo teo
  | NLinked go a => fw GGo go ++ function_words a
  | NPredArg fo q p rel => ofw GKu fo ++ ofw GTu q ++ function_words p ++ mfw rel
  | NPredRel p | NAdverb p | NPredContent p => function_words p
  | NParen kio ki d => fw GKio kio ++ flat_map function_words d ++ fw GKi ki
  | NIncidental ju st => fw GJu ju ++ function_words st
  | NVocative hu a => fw GHu hu ++ function_words a
  | NInterjection w => fw GBei w
  | NCoP _ to0 to1 ru l r => ofw GTo to0 ++ fw GRa ru ++ function_words l ++ ofw GTo to1 ++ function_words r
  | NLU _ lu st => fw GLu lu ++ function_words st
  end.
Proof. destruct n; reflexivity. Qed.

Section Mods.
Variable mm : option node.
Variable t : group * string.
Notation okn := (fun n => forall n', mod_node mm n = Ok n' -> In t (function_words n') -> In t (function_words n) \/ In t (mfw mm)).
Notation okw := (fun w => forall w', mod_word mm w = Ok w' -> w_t w' = w_t w /\ (In t (wfw w') -> In t (wfw w) \/ In t (mfw mm))).

Lemma map_last_fw (f : node -> res node) d d' : (forall x y, f x = Ok y -> mod_node mm x = Ok y) -> Forall okn d ->
  map_last f d = Ok d' -> In t (flat_map function_words d') -> In t (flat_map function_words d) \/ In t (mfw mm).
Proof.
  intros F. revert d'. induction d as [|x d IH]; intros d' H E; [discriminate|]. inversion H as [|? ? Hx Hd]; subst.
  cbn [map_last] in E. destruct d as [|y d]; apply bind_ok in E; destruct E as (z & Ez & E); injection E as <-.
  - cbn [flat_map]. rewrite !app_nil_r. apply Hx, F, Ez.
  - cbn [flat_map] in *. rewrite !in_app_iff in *. intros [T|T]; [tauto|]. destruct (IH _ Hd Ez T) as [K|K]; cbn [flat_map] in K; rewrite ?in_app_iff in K; tauto.
Qed.
Lemma discourse_fw d d' : Forall okn d -> discourse_mod (mod_node mm) d = Ok d' -> In t (flat_map function_words d') -> In t (flat_map function_words d) \/ In t (mfw mm).
Proof. apply map_last_fw. intros x y. destruct (_ || _)%bool; [auto|discriminate]. Qed.
Lemma terms_fw d d' : Forall okn d -> terms_mod mm (mod_node mm) d = Ok d' -> In t (flat_map function_words d') -> In t (flat_map function_words d) \/ In t (mfw mm).
Proof. intros H E. assert (K := fun f => map_last_fw f d d'). unfold terms_mod in E. destruct mm; [eapply K; eauto|]. injection E as <-. auto. Qed.

Lemma mod_fw : (forall n, okn n) /\ (forall w, okw w).
Proof.
  apply (node_word_ind okn okw); intros ??;
    intros; match goal with E : _ = Ok _ |- _ => rename E into E' end;
    (first [rewrite mod_node_eq in E'|rewrite mod_word_eq in E']);
    repeat match type of E' with context [match ?x with Some _ => _ | None => _ end] => is_var x; destruct x eqn:?; cbn [onO] in * end;
    try (apply bind_ok in E'; destruct E' as (x & Ex & E'));
    injection E' as <-.
  all: try match goal with H : In t (function_words _) |- _ => rename H into T; rewrite function_words_eq in T end.
  all: try rewrite function_words_eq.
  all: cbn [ofw mfw tfw] in *; unfold fw in *; cbn [app] in *; rewrite ?in_app_iff in *; cbn [In] in *; rewrite ?in_app_iff in *; cbn [In] in *.
  all: try match type of Ex with
    | discourse_mod _ _ = Ok _ => pose proof (discourse_fw _ _ ltac:(eassumption) Ex)
    | terms_mod _ _ _ = Ok _ => pose proof (terms_fw _ _ ltac:(eassumption) Ex)
    | _ => match goal with H : forall n', _ = Ok n' -> _ |- _ => pose proof (H _ Ex) end
    end.
  all: try tauto.
  all: try match goal with H : _ = _ /\ (_ -> _) |- _ => let E := fresh in destruct H as [E ?]; rewrite ?E in * end; try tauto.
Qed.
End Mods.

(** ** Values *)

Fixpoint vfw (v : val) : list (group * string) :=
  match v with
  | VNode n => function_words n
  | VOpt (Some v) => vfw v
  | VWord w => wfw w
  | VConn to ru => fw GTo to ++ fw GRa ru
  | VBar ru r => fw GRa ru ++ function_words r
  | VForeBar to r => fw GTo to ++ function_words r
  | VFore to l r => fw GTo to ++ function_words l ++ function_words r
  | VMo mo d => fw GMo mo ++ flat_map function_words d
  | VParen kio d => fw GKio kio ++ flat_map function_words d
  | _ => []
  end.

Lemma nmod_fw t s n n' : nmod s n = Ok n' -> In t (function_words n') -> In t (function_words n) \/ In t (vfw (VOpt s)).
Proof.
  intros E T. destruct s as [[| |m| | | | | | | |]|]; try discriminate E; cbn [nmod] in E.
  - exact (proj1 (mod_fw (Some m) t) n n' E T).
  - apply (proj1 mod_none) in E. subst n'. auto.
Qed.
Lemma wmod_fw t s w w' : wmod s w = Ok w' -> w_t w' = w_t w /\ (In t (wfw w') -> In t (wfw w) \/ In t (vfw (VOpt s))).
Proof.
  intros E. destruct s as [[| |m| | | | | | | |]|]; try discriminate E; cbn [wmod] in E.
  - exact (proj2 (mod_fw (Some m) t) w w' E).
  - rewrite (proj2 mod_none) in E. injection E as <-. auto.
Qed.
Lemma opt_word_cases s o : opt_word s = Ok o -> (s = None /\ o = None) \/ exists w, s = Some (VWord w) /\ o = Some w.
Proof. destruct s as [[]|]; try discriminate; intro E; injection E as <-; eauto. Qed.
Lemma opt_node_cases s o : opt_node s = Ok o -> (s = None /\ o = None) \/ exists n, s = Some (VNode n) /\ o = Some n.
Proof. destruct s as [[]|]; try discriminate; intro E; injection E as <-; eauto. Qed.

Section Good.
Variable good : group -> string -> bool.

Definition gword (k : option group) (w : word) : Prop := match k with Some g => good g (w_t w) = true | None => True end.
Definition gfits (k : option group) (v : val) : Prop :=
  match v with
  | VWord w | VOpt (Some (VWord w)) => gword k w
  | _ => True
  end.
Fixpoint needs_ok (ks : list (option group)) (vs : list val) : Prop :=
  match ks, vs with
  | k :: ks, v :: vs => gfits k v /\ needs_ok ks vs
  | _, _ => True
  end.
Definition vok (v : val) : Prop := forall g s, In (g, s) (vfw v) -> good g s = true.
End Good.

(** The groups of the words that an action takes. *)
Definition wneeds (a : act) : list (option group) :=
  match a with
  | AJE => [Some GKeo]
  | ASentence => [None; None; Some GDa]
  | AEndPredication | APredRel | APredContent => [None; None; Some GNa]
  | APrenex => [None; None; Some GBi]
  | ALinked => [Some GGo]
  | AFocus => [Some GKu]
  | AQuant => [Some GTu]
  | AConnector => [Some GTo; None; Some GRa]
  | AForeRight => [Some GTo]
  | ACopRight => [Some GRa]
  | AMiEnd | APoEnd => [None; None; Some GGa]
  | AMi => [Some GMi]
  | APo => [Some GPo]
  | AMoEnd => [None; None; Some GTeo]
  | AMo => [Some GMo]
  | AEndParen => [None; None; Some GKi]
  | AParen => [Some GKio]
  | AIncidental => [Some GJu]
  | AVocative => [Some GHu]
  | ALUPhrase => [Some GLu]
  | _ => []
  end.

Ltac flat T := repeat (rewrite ?in_app_iff in T; cbn [In] in T).
Lemma act_fw good a i j vs v : run_act a i j vs = Ok v -> a <> AInterjection -> Forall (vok good) vs -> needs_ok good (wneeds a) vs -> vok good v.
Proof.
  intros E N F K g s T. destruct a; try congruence; inva E; cbn [wneeds needs_ok] in K.
  all: try match goal with H : end_predication _ _ _ = Ok _ |- _ => inva H end.
  all: repeat match goal with H : Forall _ (_ :: _) |- _ => let P := fresh "P" in apply Forall_cons_iff in H; destruct H as [P H]; specialize (P g s) end.
  all: repeat match goal with
    | H : nmod _ _ = Ok _ |- _ => let K := fresh "K" in pose proof (nmod_fw (g, s) _ _ _ H) as K; clear H
    | H : wmod _ _ = Ok _ |- _ => let K := fresh "K" in let E := fresh "E" in destruct (wmod_fw (g, s) _ _ _ H) as [E K]; clear H
    | H : opt_word _ = Ok _ |- _ => apply opt_word_cases in H; let w := fresh "w" in let X := fresh in destruct H as [[-> X]|(w & -> & X)]; [first [discriminate X|subst]|first [injection X as X|idtac]; subst]
    | H : opt_node _ = Ok _ |- _ => apply opt_node_cases in H; let w := fresh "w" in let X := fresh in destruct H as [[-> X]|(w & -> & X)]; [first [discriminate X|subst]|first [injection X as X|idtac]; subst]
    end.
  all: cbn [vfw gfits gword] in *.
  all: rewrite ?(function_words_eq (NText _ _)), ?(function_words_eq (NSentence _ _ _)) in *.
  all: repeat match goal with H : context [function_words ?n] |- _ => lazymatch n with NText _ _ => idtac | _ _ => idtac end; rewrite (function_words_eq n) in H end.
  all: cbn [ofw mfw tfw] in *; unfold fw, prepend in *; rewrite ?flat_map_app in *; cbn [flat_map] in *; rewrite ?app_nil_r in *.
  all: repeat (rewrite ?in_app_iff in *; cbn [In] in * ).
  all: try tauto.
  all: repeat match goal with H : _ /\ _ |- _ => destruct H end; repeat match goal with H : w_t _ = w_t _ |- _ => rewrite H in * ; clear H end; try (intuition congruence).
Qed.

(** ** Kinds of values *)

(** The rules for the groups, toaq.peggy:393-415. *)
Definition group_of (r : positive) : option group :=
  match r with
  | 103 => Some GBi | 104 => Some GDa | 105 => Some GDa | 106 => Some GGa | 107 => Some GGo | 108 => Some GBei | 109 => Some GHu
  | 110 => Some GJu | 111 => Some GKu | 112 => Some GKi | 113 => Some GKio | 114 => Some GKeo | 115 => Some GLu | 116 => Some GMi
  | 117 => Some GMo | 118 => Some GNa | 119 => Some GPo | 120 => Some GRa | 121 => Some GTu | 122 => Some GTo | 123 => Some GTeo
  | _ => None
  end%positive.

(** A text of the group, also for hasText: in lower case its letters are those of the word. *)
Definition low (r : N) : bool := (r <? 128)%N || N.eqb r 305.
Definition goodb (g : group) (s : string) : bool :=
  existsb (fun x => same_letters (plain s) (plain x) && forallb low (runes (untoned s)) && same_text ascii_unicode (runes (untoned s)) (runes x)) (group_words g).

Definition site_ok (n : nat) (g : group) (x y : positive) : bool :=
  match site n x y with Some l => forallb (goodb g) l | None => false end.

Definition oeqb (a b : option group) : bool :=
  match a, b with
  | None, None => true
  | Some a, Some b =>
      match a, b with
      | GBi, GBi | GDa, GDa | GGa, GGa | GGo, GGo | GBei, GBei | GHu, GHu | GJu, GJu | GKu, GKu | GKi, GKi | GKio, GKio | GKeo, GKeo
      | GLu, GLu | GMi, GMi | GMo, GMo | GNa, GNa | GPo, GPo | GRa, GRa | GTu, GTu | GTo, GTo | GTeo, GTeo | GMu, GMu => true
      | _, _ => false
      end
  | _, _ => false
  end.
Lemma oeqb_eq a b : oeqb a b = true -> a = b.
Proof. destruct a as [[]|], b as [[]|]; try discriminate; reflexivity. Qed.

Section Kinds.
Variable n : nat.
Variable table : positive -> option group.
Fixpoint gkind (e : expr) : option group :=
  match e with
  | ECall r => table r
  | ESub e | ELabel _ e | EOpt e => gkind e
  | EChoice a b => if oeqb (gkind a) (gkind b) then gkind a else None
  | EAction AWord [x] (ESeq (EAnd (ECall r)) (ELabel _ (ECall _))) => group_of r
  | EAction AMod [x; _] (ESeq (ELabel y e) _) => if Nat.eqb x y then gkind e else None
  | _ => None
  end.
Fixpoint labset (l : nat) (e : expr) : list (option group) :=
  match e with
  | ESub e => labset l e
  | ESeq a b | EChoice a b => labset l a ++ labset l b
  | ELabel l' e => if Nat.eqb l l' then [gkind e] else []
  | _ => []
  end.
Fixpoint args_ok (ks : list (option group)) (args : list nat) (e : expr) : bool :=
  match ks, args with
  | k :: ks, l :: args => match k with None => true | Some _ => forallb (oeqb k) (labset l e) end && args_ok ks args e
  | _, _ => true
  end.
Definition act_ok (a : act) (args : list nat) (e : expr) : bool :=
  match a with
  | AWord | AInterjection =>
      match args, e with
      | [x], ESeq (EAnd (ECall r)) (ELabel y (ECall r')) =>
          Nat.eqb x y && match group_of r with
            | Some g => site_ok n g r r' && match a with AInterjection => oeqb (Some g) (Some GBei) | _ => true end
            | None => false
            end
      | _, _ => false
      end
  | AMod =>
      match args, e with
      | [x; _], ESeq (ELabel y e1) e2 => if Nat.eqb x y then forallb (oeqb (gkind e1)) (labset x e2) else true
      | _, _ => true
      end
  | _ => args_ok (wneeds a) args e
  end.
Fixpoint exp_ok (e : expr) : bool :=
  match e with
  | ELit _ | EClass _ | EAny | EPunct | ECall _ => true
  | ESeq a b | EChoice a b => exp_ok a && exp_ok b
  | EPlus e | EOpt e | EAnd e | ENot e | ESub e | ELabel _ e => exp_ok e
  | EAction a args e => exp_ok e && act_ok a args e
  end.
End Kinds.

Definition gtab := PositiveMap.t (option group).
Definition gtab_get (t : gtab) (r : positive) : option group := match PositiveMap.find r t with Some k => k | None => None end.
Definition gtab_step (t : gtab) : gtab := PositiveMap.mapi (fun _ x => gkind (gtab_get t) (r_body x)) rule_map.
Definition toaq_gtab : gtab := Eval vm_compute in Nat.iter 12 gtab_step (PositiveMap.empty _).
Definition toaq_gk (r : positive) : option group := match PositiveMap.find r rule_map with Some _ => gtab_get toaq_gtab r | None => None end.

Definition rule_good (p : positive * rule) : bool :=
  oeqb (gkind toaq_gk (r_body (snd p))) (toaq_gk (fst p)) && exp_ok 200 toaq_gk (r_body (snd p)).
Lemma gtab_check : forallb rule_good (PositiveMap.elements rule_map) = true.
Proof. vm_cast_no_check (eq_refl true). Qed.
Lemma toaq_good r : gkind toaq_gk (r_body (toaq r)) = toaq_gk r /\ exp_ok 200 toaq_gk (r_body (toaq r)) = true.
Proof.
  unfold toaq. destruct (PositiveMap.find r rule_map) as [x|] eqn:F.
  - pose proof gtab_check as C. rewrite forallb_forall in C. specialize (C (r, x) (PositiveMap.elements_correct _ _ F)).
    unfold rule_good in C. cbn [fst snd] in C. apply andb_prop in C. destruct C as [C D]. apply oeqb_eq in C. auto.
  - unfold toaq_gk. rewrite F. split; reflexivity.
Qed.

(** ** The induction *)

Section Text.
Variable is_punct : N -> bool.
Variable text : string.
Hypothesis no_punct : letters_no_punct is_punct.
Variable n : nat.
Hypothesis good_rules : forall r, gkind toaq_gk (r_body (toaq r)) = toaq_gk r /\ exp_ok n toaq_gk (r_body (toaq r)) = true.
Notation vsem := (@vsem toaq is_punct text).
Notation vstar := (@vstar toaq is_punct text).
Notation gkind := (gkind toaq_gk).
Notation labset := (labset toaq_gk).
Notation exp_ok := (exp_ok n toaq_gk).
Notation vok := (vok goodb).
Notation gfits := (gfits goodb).

Definition env_ok (e : expr) (en : env) : Prop := forall l v, In (l, v) en -> vok v /\ exists k, In k (labset l e) /\ gfits k v.
Definition out_ok (e : expr) (o : aout (val * env)) : Prop :=
  exp_ok e = true -> match o with AOk p (v, en) => gfits (gkind e) v /\ vok v /\ env_ok e en | _ => True end.

Lemma stuck_ok e o : stuck o = true -> out_ok e o.
Proof. destruct o; [intros _ _; exact I|intros _ _; exact I|discriminate]. Qed.
Lemma gfits_none v : gfits None v.
Proof. destruct v as [| | |[[]|]| | | | | | |]; exact I. Qed.
Lemma gfits_opt k v : gfits k v -> gfits k (VOpt (Some v)).
Proof. destruct v; try (intros; exact I). intros H; exact H. Qed.
Lemma vok_str s : vok (VStr s).
Proof. intros ? ? []. Qed.
Lemma vok_unit : vok VUnit.
Proof. intros ? ? []. Qed.
Lemma vok_vcat a b : vok (vcat a b).
Proof. destruct a; try apply vok_unit. destruct b; apply vok_unit. Qed.
Lemma gfits_vcat k a b : gfits k (vcat a b).
Proof. destruct a; try exact I. destruct b; exact I. Qed.
Lemma vok_vplus a b : vok a -> vok b -> vok (vplus a b).
Proof.
  intros A B. destruct a; cbn [vplus]; try apply vok_unit.
  - destruct b; apply vok_unit.
  - match goal with n : node |- _ => destruct n end; try apply vok_unit. destruct b; try apply vok_unit.
    intros g s T. cbn [vfw] in T. rewrite function_words_eq, flat_map_app, in_app_iff in T. cbn [flat_map] in T. rewrite app_nil_r in T.
    destruct T as [T|T]; [apply A; cbn [vfw]; rewrite function_words_eq; exact T|apply B; exact T].
Qed.
Lemma vok_vplus0 a : vok a -> vok (vplus0 a).
Proof.
  intros A. destruct a; cbn [vplus0]; try apply vok_unit.
  intros g s T. cbn [vfw] in T. rewrite function_words_eq in T. cbn [flat_map] in T. rewrite app_nil_r in T. apply A. exact T.
Qed.
Lemma env_nil e : env_ok e [].
Proof. intros l v []. Qed.

Lemma get_label_in l en v : get_label l en = Some v -> In (l, v) en.
Proof.
  induction en as [|[l' x] en IH]; cbn [get_label]; [discriminate|]. destruct (Nat.eqb_spec l l') as [->|]; intros E; [injection E as ->; left; reflexivity|right; auto].
Qed.
Lemma labels_ok e en : env_ok e en -> forall args vs, get_labels args en = Some vs -> Forall vok vs.
Proof.
  intros H args. induction args as [|l args IH]; intros vs E; cbn [get_labels] in E; [injection E as <-; constructor|].
  destruct (get_label l en) as [v|] eqn:G; [|discriminate]. destruct (get_labels args en) as [ws|]; [|discriminate]. injection E as <-.
  constructor; [apply (H l), get_label_in, G|auto].
Qed.
Lemma labels_need e en : env_ok e en -> forall args ks vs, args_ok toaq_gk ks args e = true -> get_labels args en = Some vs -> needs_ok goodb ks vs.
Proof.
  intros H args. induction args as [|l args IH]; intros ks vs A E; cbn [get_labels] in E; [injection E as <-; destruct ks; exact I|].
  destruct (get_label l en) as [v|] eqn:G; [|discriminate]. destruct (get_labels args en) as [ws|]; [|discriminate]. injection E as <-.
  destruct ks as [|k ks]; [exact I|]. cbn [args_ok] in A. apply andb_prop in A. destruct A as [A B]. split; [|eapply IH; eauto].
  destruct k as [g|]; [|apply gfits_none]. destruct (H l v (get_label_in _ _ _ G)) as (_ & k & I & F). rewrite forallb_forall in A. apply A, oeqb_eq in I. subst k. exact F.
Qed.

Lemma fw_sem :
  (forall e pos o, vsem e pos o -> out_ok e o) /\
  (forall e pos v o, vstar e pos v o -> exp_ok e = true -> vok v -> match o with AOk p (v', en) => vok v' /\ en = [] | _ => True end).
Proof.
  apply vsem_star_ind; try (intros; apply stuck_ok; first [assumption|reflexivity]).
  - (* terminal *) intros e pos p k err T _ _. split; [exact I|]. split; [apply vok_str|apply env_nil].
  - (* call *) intros r pos p k err v en _ _ IH _. destruct (good_rules r) as [K X]. destruct (IH X) as (A & B & _). rewrite K in A. split; [exact A|]. split; [exact B|apply env_nil].
  - (* seq *) intros a b pos p1 v1 en1 p2 v2 en2 _ IA _ IB X. cbn [FuncTree.exp_ok] in X. apply andb_prop in X. destruct X as [X Y].
    destruct (IA X) as (_ & _ & E1). destruct (IB Y) as (_ & _ & E2). split; [apply gfits_vcat|]. split; [apply vok_vcat|].
    intros l v I. cbn [FuncTree.labset]. apply in_app_iff in I. destruct I as [I|I]; [destruct (E1 _ _ I) as (V & k & J & G)|destruct (E2 _ _ I) as (V & k & J & G)]; (split; [exact V|]; exists k; rewrite in_app_iff; auto).
  - (* choice 1 *) intros a b pos o _ IH N X. cbn [FuncTree.exp_ok] in X. apply andb_prop in X. destruct X as [X Y]. specialize (IH X). destruct o as [| |p [v en]]; try exact I.
    destruct IH as (A & B & C). split; [|split; [exact B|]].
    + cbn [FuncTree.gkind]. destruct (oeqb _ _); [exact A|apply gfits_none].
    + intros l x I. destruct (C _ _ I) as (V & k & J & G). split; [exact V|]. exists k. cbn [FuncTree.labset]. rewrite in_app_iff. auto.
  - (* choice 2 *) intros a b pos o _ _ _ IH X. cbn [FuncTree.exp_ok] in X. apply andb_prop in X. destruct X as [X Y]. specialize (IH Y). destruct o as [| |p [v en]]; try exact I.
    destruct IH as (A & B & C). split; [|split; [exact B|]].
    + cbn [FuncTree.gkind]. destruct (oeqb _ _) eqn:Q; [apply oeqb_eq in Q; rewrite Q; exact A|apply gfits_none].
    + intros l x I. destruct (C _ _ I) as (V & k & J & G). split; [exact V|]. exists k. cbn [FuncTree.labset]. rewrite in_app_iff. auto.
  - (* plus *) intros e pos p1 v1 en1 o _ IH _ IS X. cbn [FuncTree.exp_ok] in X. destruct (IH X) as (_ & B & _). specialize (IS X (vok_vplus0 _ B)).
    destruct o as [| |p [v en]]; try exact I. destruct IS as [V ->]. split; [apply gfits_none|]. split; [exact V|apply env_nil].
  - (* opt *) intros e pos p v en _ IH X. cbn [FuncTree.exp_ok] in X. destruct (IH X) as (A & B & _). split; [apply gfits_opt, A|]. split; [exact B|apply env_nil].
  - intros e pos _ _ X. split; [exact I|]. split; [intros ? ? []|apply env_nil].
  - (* and *) intros e pos p v _ _ _. split; [exact I|]. split; [apply vok_str|apply env_nil].
  - (* not *) intros e pos _ _ _. split; [exact I|]. split; [apply vok_str|apply env_nil].
  - (* sub *) intros e pos o _ IH X. exact (IH X).
  - (* label *) intros l e pos p v en _ IH X. cbn [FuncTree.exp_ok] in X. destruct (IH X) as (A & B & _). split; [exact A|]. split; [exact B|].
    intros l' x [I|[]]. injection I as <- <-. split; [exact B|]. exists (gkind e). cbn [FuncTree.labset]. rewrite Nat.eqb_refl. split; [left; reflexivity|exact A].
  - (* action *) intros a args e pos p v en v' V IH R X. cbn [FuncTree.exp_ok] in X. apply andb_prop in X. destruct X as [X Y]. destruct (IH X) as (_ & _ & C).
    unfold run_action in R. destruct (get_labels args en) as [vs|] eqn:L; [|discriminate]. pose proof (labels_ok _ _ C _ _ L) as F.
    assert (W : match a with AWord | AInterjection | AMod => False | _ => True end \/ a = AWord \/ a = AInterjection \/ a = AMod) by (destruct a; auto).
    assert (Site : forall x g r r' y, args = [x] -> e = ESeq (EAnd (ECall r)) (ELabel y (ECall r')) -> Nat.eqb x y = true -> site_ok n g r r' = true -> forall w, vs = [VStr w] -> goodb g w = true).
    { intros x g r r' y -> -> Q S w ->. apply Nat.eqb_eq in Q. subst y. unfold site_ok in S. destruct (site n r r') as [lst|] eqn:E; [|discriminate].
      destruct (site_sound _ _ no_punct _ _ _ _ _ _ _ _ _ E V) as (u & -> & H). cbn [get_labels get_label] in L. rewrite Nat.eqb_refl in L. injection L as ->.
      rewrite forallb_forall in S. apply S, H. reflexivity. }
    assert (G : gfits (gkind (EAction a args e)) v' /\ vok v'); [|split; [apply G|]; split; [apply G|apply env_nil]].
    destruct W as [W|[->|[-> | ->]]].
    + split; [destruct a; try contradiction; apply gfits_none|]. apply (act_fw goodb _ _ _ _ _ R); [intros ->; exact W|exact F|]. eapply labels_need; [exact C| |exact L].
      destruct a; try contradiction; exact Y.
    + cbn [act_ok] in Y. destruct args as [|x [|]]; try discriminate. destruct e as [| | | | |e1 e2| | | | | | | |]; try discriminate.
      destruct e1; try discriminate. destruct e1; try discriminate. destruct e2; try discriminate. destruct e2; try discriminate.
      apply andb_prop in Y. destruct Y as [Y1 Y2]. cbn [FuncTree.gkind]. destruct (group_of r) as [g|] eqn:GO; [|discriminate]. apply andb_prop in Y2. destruct Y2 as [Y2 _].
      specialize (Site _ _ _ _ _ eq_refl eq_refl Y1 Y2). cbn [run_act] in R. destruct vs as [|[w| | | | | | | | | |] [|]]; try discriminate. injection R as <-. split; [exact (Site _ eq_refl)|intros ? ? []].
    + cbn [act_ok] in Y. destruct args as [|x [|]]; try discriminate. destruct e as [| | | | |e1 e2| | | | | | | |]; try discriminate.
      destruct e1; try discriminate. destruct e1; try discriminate. destruct e2; try discriminate. destruct e2; try discriminate.
      apply andb_prop in Y. destruct Y as [Y1 Y2]. destruct (group_of r) as [g|] eqn:GO; [|discriminate]. apply andb_prop in Y2. destruct Y2 as [Y2 Y3].
      specialize (Site _ _ _ _ _ eq_refl eq_refl Y1 Y2). cbn [run_act] in R. destruct vs as [|[w| | | | | | | | | |] [|]]; try discriminate. injection R as <-. split; [apply gfits_none|].
      apply oeqb_eq in Y3. injection Y3 as ->. intros g s [T|[]]. injection T as <- <-. exact (Site _ eq_refl).
    + split; [|apply (act_fw goodb _ _ _ _ _ R); [discriminate|exact F|destruct vs; exact I]].
      cbn [act_ok] in Y. cbn [FuncTree.gkind]. destruct args as [|x [|z [|]]]; try apply gfits_none. destruct e as [| | | | |e1 e2| | | | | | | |]; try apply gfits_none. destruct e1 as [| | | | | | | | | | | |y e1|]; try apply gfits_none.
      destruct (Nat.eqb_spec x y) as [->|]; [|apply gfits_none]. cbn [get_labels] in L. destruct (get_label y en) as [v1|] eqn:G1; [|discriminate].
      destruct (get_label z en) as [v2|]; [|discriminate]. injection L as <-. destruct (C y v1 (get_label_in _ _ _ G1)) as (_ & k & J & K).
      cbn [FuncTree.labset] in J. rewrite Nat.eqb_refl in J. assert (k = gkind e1) as -> by (destruct J as [<-|J]; [reflexivity|]; rewrite forallb_forall in Y; apply Y, oeqb_eq in J; auto).
      cbn [run_act] in R. destruct v1 as [|w| | | | | | | | |]; try discriminate; destruct v2; try discriminate; apply bind_ok in R; destruct R as (w' & Ew & R); injection R as <-; [|exact I].
      destruct (wmod_fw (GBi, ""%string) _ _ _ Ew) as [Et _]. cbn [FuncTree.gfits]. unfold gword. destruct (gkind e1); [|exact I]. rewrite Et. exact K.
  - (* star *) intros e pos v _ _ X B. auto.
  - intros; exact I.
  - intros e pos v p1 v1 en1 o _ IH _ IS X B. destruct (IH X) as (_ & B1 & _). apply (IS X). apply vok_vplus; assumption.
Qed.
End Text.

(** ** Parsed trees *)

Lemma text_fw is_punct text p n : letters_no_punct is_punct -> reach is_punct text p -> fst (text_of is_punct p) = Ok (Got (Some n)) ->
  forall g s, In (g, s) (function_words n) -> goodb g s = true.
Proof.
  intros N R E. apply (proj1 (text_sem _ _ p R)) in E. destruct E as (q & V).
  destruct (proj1 (fw_sem is_punct text N _ toaq_good) _ _ _ V eq_refl) as (_ & D & _). exact D.
Qed.

Lemma same_letters_eq a b : same_letters a b = true -> a = b.
Proof.
  revert b. induction a as [|x a IH]; intros [|y b] H; try discriminate; [reflexivity|]. cbn in H. apply andb_prop in H. destruct H as [A B].
  apply N.eqb_eq in A. subst. f_equal. apply IH, B.
Qed.
Lemma goodb_group g s : goodb g s = true -> of_group g s.
Proof.
  unfold goodb. intros H. apply existsb_exists in H. destruct H as (x & I & H). apply andb_prop in H. destruct H as [H _]. apply andb_prop in H. destruct H as [H _].
  exists x. split; [exact I|apply same_letters_eq, H].
Qed.
Lemma text_groups is_punct text p n : letters_no_punct is_punct -> reach is_punct text p -> fst (text_of is_punct p) = Ok (Got (Some n)) ->
  forall g s, In (g, s) (function_words n) -> of_group g s.
Proof. intros N R E g s I. apply goodb_group. eapply text_fw; eauto. Qed.
