(** The words of a parsed tree are spelled as in the text. *)

From Coq Require Import String Ascii NArith ZArith PArith List Bool Permutation FMapPositive Lia.
From Verif Require Import Base Utf8 Utf8Facts Tone PegSyntax Grammar Peg PegToaq PegSpec PegFacts PegToaqFacts Ast AstInd ModFacts
  Action ActionSpec Parser ActionFacts PegText ParserSpec ApiFacts VisitSpec ModSpec ModWords TileSpec SpellSpec TileFacts TileApi.
Import ListNotations.
Open Scope nat_scope.
Open Scope list_scope.
Open Scope res_scope.

Definition nlist_eqb (a b : list N) : bool := if list_eq_dec N.eq_dec a b then true else false.
Lemma nlist_eqb_eq a b : nlist_eqb a b = true -> a = b.
Proof. unfold nlist_eqb. destruct (list_eq_dec _ _ _); [auto|discriminate]. Qed.

Definition real (r : N) : bool := valid_rune r && negb (N.eqb r rune_error).
Definition seps : list N := [9; 10; 13; 32; 46; 44; 58; 33; 63]%N.

(** Kinds of string values. *)
Inductive skind : Type := SAny | SNil | SPlain | SSpell | SSign (t : N) | SSep.

Section Kinds.
Variable is_punct : N -> bool.

Definition valid (l : list N) : Prop := Forall (fun r => valid_rune r = true) l.

(** [fits k s u]: the value [s] of the part [u] of the text. *)
Definition fits (k : skind) (s u : string) : Prop :=
  match k with
  | SAny => True
  | SNil => s = "" /\ u = ""
  | SPlain => exists a b, s = of_runes a /\ u = of_runes b /\ valid a /\ valid b /\
      flat_map letter_of a = flat_map letter_of b /\ flat_map tone_of a = [] /\ flat_map tone_of b = [] /\
      Forall (fun r => normal_rune r = true) a
  | SSpell => exists a b, s = of_runes a /\ u = of_runes b /\ valid a /\ valid b /\
      flat_map letter_of a = flat_map letter_of b /\ flat_map tone_of a = flat_map tone_of b /\
      Forall (fun r => normal_rune r = true) a
  | SSign t => s = u /\ exists r, u = of_runes [r] /\ valid [r] /\ letter_of r = [] /\ tone_of r = [t]
  | SSep => s = u /\ exists b, u = of_runes b /\ valid b /\ Forall (fun r => In r seps \/ is_punct r = true) b
  end%string.

Definition vfits (k : skind) (v : val) (u : string) : Prop :=
  match k with SAny => True | _ => exists s, v = VStr s /\ fits k s u end.

Definition sk_le (a b : skind) : bool :=
  match a, b with
  | _, SAny => true
  | SNil, (SNil | SPlain | SSpell | SSep) => true
  | SPlain, (SPlain | SSpell) => true
  | SSpell, SSpell => true
  | SSign t, SSign t' => N.eqb t t'
  | SSep, SSep => true
  | _, _ => false
  end.

Lemma fits_le a b s u : sk_le a b = true -> fits a s u -> fits b s u.
Proof.
  intros H F. destruct a, b; try discriminate H; try exact I; try exact F; cbn [fits] in *.
  - destruct F as [-> ->]. exists [], []. repeat split; constructor.
  - destruct F as [-> ->]. exists [], []. repeat split; constructor.
  - destruct F as [-> ->]. split; [reflexivity|]. exists []. repeat split; constructor.
  - destruct F as (x & y & A & B & C & D & E & F1 & F2 & G). exists x, y. repeat split; try assumption. congruence.
  - cbn [sk_le] in H. apply N.eqb_eq in H. subst. exact F.
Qed.

Lemma vfits_le a b v u : sk_le a b = true -> vfits a v u -> vfits b v u.
Proof.
  intros H F. destruct b; try exact I; destruct a; try discriminate H; destruct F as (s & -> & F); exists s; (split; [reflexivity|]); exact (fits_le _ _ _ _ H F).
Qed.

Definition sk_join (a b : skind) : skind := if sk_le a b then b else if sk_le b a then a else SAny.

Lemma join_l a b v u : vfits a v u -> vfits (sk_join a b) v u.
Proof. intro F. unfold sk_join. destruct (sk_le a b) eqn:E; [exact (vfits_le _ _ _ _ E F)|]. destruct (sk_le b a); [exact F|exact I]. Qed.
Lemma join_r a b v u : vfits b v u -> vfits (sk_join a b) v u.
Proof. intro F. unfold sk_join. destruct (sk_le a b) eqn:E; [exact F|]. destruct (sk_le b a) eqn:E2; [exact (vfits_le _ _ _ _ E2 F)|exact I]. Qed.

Definition sk_cat (a b : skind) : skind :=
  match a, b with
  | SNil, _ => b
  | _, SNil => a
  | SPlain, SPlain => SPlain
  | SPlain, SSpell | SSpell, SPlain | SSpell, SSpell => SSpell
  | SSep, SSep => SSep
  | _, _ => SAny
  end.

Lemma sempty_app s : (s ++ "")%string = s.
Proof. apply sapp_nil_r. Qed.

Lemma spell_cat s t u v : fits SSpell s u -> fits SSpell t v -> fits SSpell (s ++ t) (u ++ v).
Proof.
  cbn [fits]. intros (a & b & -> & -> & V1 & V2 & A1 & A2 & A3) (c & d & -> & -> & W1 & W2 & B1 & B2 & B3).
  exists (a ++ c), (b ++ d). rewrite !of_runes_app, !flat_map_app. unfold valid. rewrite !Forall_app. repeat split; try assumption; congruence.
Qed.

Lemma fits_cat a b s t u v : fits a s u -> fits b t v -> fits (sk_cat a b) (s ++ t) (u ++ v).
Proof.
  intros F G. destruct a; destruct b; try exact I;
    try (apply spell_cat; first [exact F|exact G|exact (fits_le SPlain SSpell _ _ eq_refl F)|exact (fits_le SPlain SSpell _ _ eq_refl G)]).
  all: cbn [sk_cat].
  all: try (destruct F as [-> ->]; cbn [append]; exact G).
  all: try (destruct G as [-> ->]; rewrite !sempty_app; exact F).
  - destruct F as (a & b & -> & -> & V1 & V2 & A1 & A2 & A2' & A3), G as (c & d & -> & -> & W1 & W2 & B1 & B2 & B2' & B3).
    exists (a ++ c), (b ++ d). rewrite !of_runes_app, !flat_map_app. unfold valid. rewrite !Forall_app, A2, A2', B2, B2'. repeat split; try assumption; congruence.
  - destruct F as (-> & a & -> & V & A), G as (-> & b & -> & W & B). split; [reflexivity|]. exists (a ++ b).
    rewrite of_runes_app. unfold valid. rewrite !Forall_app. auto.
Qed.

Lemma vfits_cat a b x y u v : vfits a x u -> vfits b y v -> vfits (sk_cat a b) (vcat x y) (u ++ v).
Proof.
  intros F G. destruct a, b; try exact I; destruct F as (s0 & -> & F), G as (t0 & -> & G); cbn [sk_cat vcat].
  all: try exact I.
  all: eexists; (split; [reflexivity|]); exact (fits_cat _ _ _ _ _ _ F G).
Qed.

Definition sk_plus (a : skind) : skind := match a with SPlain | SSpell | SSep => a | _ => SAny end.

Lemma vfits_plus a x y u v : vfits (sk_plus a) x u -> vfits a y v -> vfits (sk_plus a) (vplus x y) (u ++ v).
Proof.
  intros F G. destruct a; try exact I; destruct F as (s & -> & F), G as (t & -> & G); cbn [vplus]; eexists; (split; [reflexivity|]).
  - exact (fits_cat SPlain SPlain _ _ _ _ F G).
  - exact (fits_cat SSpell SSpell _ _ _ _ F G).
  - exact (fits_cat SSep SSep _ _ _ _ F G).
Qed.

Lemma vfits_plus0 a x u : vfits a x u -> vfits (sk_plus a) (vplus0 x) u.
Proof. intro F. destruct a; try exact I; destruct F as (s & -> & F); exists s; (split; [reflexivity|exact F]). Qed.

(** ** Kinds of expressions *)

Definition plain_rune (r : N) : bool := normal_rune r && match find_toned r with Some _ => false | None => true end.

Definition sk_class (rs : list N) : skind :=
  if negb (forallb real rs) then SAny
  else if forallb (fun r => plain_rune r) rs then
    (if forallb (fun r => existsb (N.eqb r) seps) rs then SSep else SPlain)
  else if forallb normal_rune rs then SSpell
  else match rs with
    | r :: _ =>
        match letter_of r, tone_of r with
        | [], [t] => if forallb (fun x => nlist_eqb (letter_of x) [] && nlist_eqb (tone_of x) [t]) rs then SSign t else SAny
        | _, _ => SAny
        end
    | [] => SAny
    end.

Definition sk_lit (s : string) : skind :=
  let rs := runes s in
  if negb (String.eqb (of_runes rs) s) then SAny
  else if forallb (fun r => existsb (N.eqb r) seps) rs then SSep
  else match rs with
    | [r] => match letter_of r, tone_of r with [], [t] => SSign t | _, _ => SAny end
    | _ => SAny
    end.

Variable table : positive -> skind.

Fixpoint sk (e : expr) : skind :=
  match e with
  | ELit s => sk_lit s
  | EClass rs => sk_class rs
  | EPunct => SSep
  | ECall r => table r
  | ESeq a b => sk_cat (sk a) (sk b)
  | EChoice a b => sk_join (sk a) (sk b)
  | EPlus e => sk_plus (sk e)
  | EAnd _ | ENot _ => SNil
  | ESub e | ELabel _ e => sk e
  | EAction ADotless [x] (ELabel y (EClass rs)) =>
      if Nat.eqb x y && forallb (fun r => real r && plain_rune (if N.eqb r 105 then 305%N else r)) rs then SPlain else SAny
  | EAction (ADiacritic t) [x] (ESeq (ELabel y e1) e2) =>
      match sk e1, sk e2 with
      | SPlain, SSign t' => if Nat.eqb x y && N.eqb t t' then SSpell else SAny
      | _, _ => SAny
      end
  | EAction AAddTone [x; x'] (ESeq (ELabel y e1) (ELabel y' e2)) =>
      match sk e1, sk e2 with
      | SPlain, SSign _ => if Nat.eqb x y && Nat.eqb x' y' && negb (Nat.eqb x x') then SSpell else SAny
      | _, _ => SAny
      end
  | _ => SAny
  end.

Definition sk_word (k : skind) : bool := match k with SSpell | SPlain | SSep => true | _ => false end.

(** The actions that make words. *)
Definition act_spells (a : act) (args : list nat) (e : expr) : bool :=
  if wordy a then
    match args, e with
    | [x], ELabel y e1 | [x], ESeq (EAnd _) (ELabel y e1) => Nat.eqb x y && sk_word (sk e1)
    | _, _ => false
    end
  else true.

Fixpoint exp_spells (e : expr) : bool :=
  match e with
  | ELit _ | EClass _ | EAny | EPunct | ECall _ => true
  | ESeq a b | EChoice a b => exp_spells a && exp_spells b
  | EPlus e | EOpt e | EAnd e | ENot e | ESub e | ELabel _ e => exp_spells e
  | EAction a args e => exp_spells e && act_spells a args e
  end.

End Kinds.

(** The kinds of the rules, found by iteration. *)
Definition sk_eqb (a b : skind) : bool := sk_le a b && sk_le b a.

Definition tab := PositiveMap.t skind.
Definition tab_get (t : tab) (r : positive) : skind := match PositiveMap.find r t with Some k => k | None => SAny end.
Definition tab_step (t : tab) : tab := PositiveMap.mapi (fun _ x => sk (tab_get t) (r_body x)) rule_map.
Definition toaq_tab : tab := Eval vm_compute in Nat.iter 12 tab_step (PositiveMap.empty _).

Definition toaq_sk (r : positive) : skind :=
  match PositiveMap.find r rule_map with Some _ => tab_get toaq_tab r | None => SAny end.

Lemma toaq_tab_check : forallb (fun p => sk_le (sk toaq_sk (r_body (snd p))) (toaq_sk (fst p)) &&
    (Pos.eqb (fst p) r_word || exp_spells toaq_sk (r_body (snd p))))
  (PositiveMap.elements rule_map) = true.
Proof. vm_compute. reflexivity. Qed.

Lemma toaq_table r : sk_le (sk toaq_sk (r_body (toaq r))) (toaq_sk r) = true.
Proof.
  unfold toaq. destruct (PositiveMap.find r rule_map) as [x|] eqn:F.
  - pose proof toaq_tab_check as C. rewrite forallb_forall in C.
    specialize (C (r, x) (PositiveMap.elements_correct _ _ F)). cbn [fst snd] in C. apply andb_prop in C. tauto.
  - unfold toaq_sk at 2. rewrite F. destruct (sk _ _); reflexivity.
Qed.

Lemma toaq_spells r : r <> r_word -> exp_spells toaq_sk (r_body (toaq r)) = true.
Proof.
  intro N. unfold toaq. destruct (PositiveMap.find r rule_map) as [x|] eqn:F; [|reflexivity].
  pose proof toaq_tab_check as C. rewrite forallb_forall in C.
  specialize (C (r, x) (PositiveMap.elements_correct _ _ F)). cbn [fst snd] in C. apply andb_prop in C. destruct C as [_ C].
  apply orb_prop in C. destruct C as [C|C]; [|exact C]. apply Pos.eqb_eq in C. contradiction.
Qed.

(** ** The words of values *)

Fixpoint atoks (v : val) : list token :=
  match v with VOpt (Some v) => atoks v | VOpt None => [] | v => vtoks v end.

Lemma nmod_in t s n n' : nmod s n = Ok n' -> In t (toks n') -> In t (toks n) \/ In t (atoks (VOpt s)).
Proof.
  intros E H. destruct s as [[| |m| | | | | | | |]|]; try discriminate E; cbn [nmod] in E.
  - destruct (proj1 (mod_inserts m) n n' E) as (a & b & E1 & E2 & _). fold (toks n) in E1. fold (toks n') in E2.
    rewrite E2 in H. rewrite E1. cbn [atoks vtoks]. rewrite !in_app_iff in *. unfold toks. tauto.
  - apply (proj1 mod_none) in E. subst n'. auto.
Qed.

Lemma wmod_in t s w w' : wmod s w = Ok w' -> In t (wtoks w') -> In t (wtoks w) \/ In t (atoks (VOpt s)).
Proof.
  intros E H. apply (nmod_in t s (NWord w) (NWord w')); [|exact H].
  destruct s as [[]|]; try discriminate E; cbn [nmod wmod] in *; rewrite mod_node_eq, E; reflexivity.
Qed.

Lemma opt_word_in t s o : opt_word s = Ok o -> In t (map tok (olist wwords o)) -> In t (atoks (VOpt s)).
Proof. destruct s as [[]|]; try discriminate; intro E; injection E as <-; intro H; exact H. Qed.

Lemma opt_node_in t s o : opt_node s = Ok o -> In t (map tok (olist words o)) -> In t (atoks (VOpt s)).
Proof. destruct s as [[]|]; try discriminate; intro E; injection E as <-; intro H; exact H. Qed.

Lemma end_predication_in t p s na y : end_predication p s na = Ok y -> In t (toks y) ->
  In t (toks p) \/ In t (atoks (VOpt s)) \/ In t (atoks (VOpt na)).
Proof.
  unfold end_predication. intros E T. inva E. pose proof (nmod_in t _ _ _ Ey) as K. pose proof (opt_word_in t _ _ Ey0) as K0.
  unfold toks in *. cbn [words] in *. rewrite ?map_app, ?in_app_iff in *. tauto.
Qed.

Lemma act_toks a i j vs v : run_act a i j vs = Ok v -> wordy a = false -> a <> AWordSpace ->
  forall t, In t (atoks v) -> In t (flat_map atoks vs).
Proof.
  intros E W N t T. destruct a; try discriminate W; try congruence; inva E.
  all: repeat match goal with
    | H : nmod _ _ = Ok _ |- _ => let K := fresh "K" in pose proof (nmod_in t _ _ _ H) as K; clear H
    | H : wmod _ _ = Ok _ |- _ => let K := fresh "K" in pose proof (wmod_in t _ _ _ H) as K; clear H
    | H : opt_word _ = Ok _ |- _ => let K := fresh "K" in pose proof (opt_word_in t _ _ H) as K; clear H
    | H : opt_node _ = Ok _ |- _ => let K := fresh "K" in pose proof (opt_node_in t _ _ H) as K; clear H
    end.
  all: cbn [flat_map atoks vtoks] in *; unfold toks, wtoks, prepend in *; cbn [words olist] in *; rewrite ?flat_map_app, ?map_app in *; cbn [flat_map] in *; rewrite ?in_app_iff, ?app_nil_r in *; rewrite ?map_app, ?in_app_iff in *; cbn [In map] in *; try tauto.
  all: match goal with H : end_predication _ _ _ = Ok _ |- _ => pose proof (end_predication_in t _ _ _ _ H T) as K end;
    cbn [atoks] in K; unfold toks in K; tauto.
Qed.

(** ** Characters *)

Lemma decode_slice text pos r w : decode_rune (sdrop pos text) = (r, w) -> r <> rune_error ->
  slice text pos (pos + w) = of_runes [r] /\ valid_rune r = true.
Proof.
  intros D N. assert (S : sdrop pos text <> ""%string) by (intro E; rewrite E in D; injection D as <- _; contradiction).
  pose proof (decode_inv _ S) as I. pose proof (decode_valid (sdrop pos text)) as V. pose proof (decode_width _ S) as W.
  rewrite D in I, V, W. cbn [fst snd] in *. specialize (I N). split; [|exact V].
  unfold slice. replace (pos + w - pos) with w by lia.
  assert (L : String.length (encode_rune r) = w).
  { apply (f_equal String.length) in I. rewrite slength_app, !sdrop_length in I. rewrite sdrop_length in W. lia. }
  rewrite I, <- L, stake_app. cbn [of_runes]. rewrite sapp_nil_r. reflexivity.
Qed.

Lemma real_spec r : real r = true -> valid_rune r = true /\ r <> rune_error.
Proof. unfold real. intro H. apply andb_prop in H. destruct H as [A B]. split; [exact A|]. intros ->. discriminate B. Qed.

Lemma runes_back a : valid a -> runes (of_runes a) = a.
Proof.
  intro V. rewrite runes_of_runes. induction V as [|r l H V IH]; [reflexivity|]. cbn [map]. rewrite (clean_valid r H), IH. reflexivity.
Qed.

Lemma of_runes_inj a b : valid a -> valid b -> of_runes a = of_runes b -> a = b.
Proof. intros A B E. rewrite <- (runes_back a A), <- (runes_back b B), E. reflexivity. Qed.

Lemma plain_spec r : plain_rune r = true -> normal_rune r = true /\ tone_of r = [].
Proof.
  unfold plain_rune, normal_rune, tone_of. intro H. apply andb_prop in H. destruct H as [A B]. split; [exact A|].
  destruct (find_toned r) as [[[? ?] ?]|]; [discriminate|]. destruct (find_sign r) as [[? ?]|]; [discriminate|reflexivity].
Qed.

Lemma class_fits is_punct rs r u : In r rs -> (forallb real rs = true -> u = of_runes [r]) -> vfits is_punct (sk_class rs) (VStr u) u.
Proof.
  intros I U. unfold sk_class. destruct (forallb real rs) eqn:R; cbn [negb]; [|exact Logic.I]. specialize (U eq_refl).
  rewrite forallb_forall in R. pose proof (real_spec r (R r I)) as [V _].
  assert (Vr : valid [r]) by (repeat constructor; exact V).
  destruct (forallb (fun r => plain_rune r) rs) eqn:P.
  - rewrite forallb_forall in P. destruct (plain_spec r (P r I)) as [N T].
    destruct (forallb (fun r => existsb (N.eqb r) seps) rs) eqn:S.
    + rewrite forallb_forall in S. specialize (S r I). apply existsb_exists in S. destruct S as (x & X & E). apply N.eqb_eq in E. subst x.
      exists u. split; [reflexivity|]. split; [reflexivity|]. exists [r]. split; [exact U|]. split; [exact Vr|]. constructor; [left; exact X|constructor].
    + exists u. split; [reflexivity|]. exists [r], [r]. cbn [flat_map]. rewrite T. repeat split; try exact U; try exact Vr. repeat constructor. exact N.
  - destruct (forallb normal_rune rs) eqn:Q.
    + rewrite forallb_forall in Q. exists u. split; [reflexivity|]. exists [r], [r]. repeat split; try exact U; try exact Vr. repeat constructor. exact (Q r I).
    + destruct rs as [|r0 rs]; [exact Logic.I|]. destruct (letter_of r0); [|exact Logic.I]. destruct (tone_of r0) as [|t [|]]; try exact Logic.I.
      match goal with |- context [forallb ?f ?l] => destruct (forallb f l) eqn:S end; [|exact Logic.I]. rewrite forallb_forall in S. specialize (S r I). apply andb_prop in S. destruct S as [S1 S2].
      exists u. split; [reflexivity|]. split; [reflexivity|]. exists r. split; [exact U|]. split; [exact Vr|]. split; apply nlist_eqb_eq; assumption.
Qed.

Lemma lit_fits is_punct s : vfits is_punct (sk_lit s) (VStr s) s.
Proof.
  unfold sk_lit. destruct (String.eqb (of_runes (runes s)) s) eqn:E; cbn [negb]; [|exact Logic.I]. apply String.eqb_eq in E.
  pose proof (runes_valid s) as V. destruct (forallb _ _) eqn:S.
  - exists s. split; [reflexivity|]. split; [reflexivity|]. exists (runes s). split; [symmetry; exact E|]. split; [exact V|].
    rewrite forallb_forall in S. apply Forall_forall. intros r I. specialize (S r I). apply existsb_exists in S. destruct S as (x & X & Q).
    apply N.eqb_eq in Q. subst x. left. exact X.
  - destruct (runes s) as [|r [|]]; try exact Logic.I. destruct (letter_of r) eqn:L; [|exact Logic.I]. destruct (tone_of r) as [|t [|]] eqn:T; try exact Logic.I.
    exists s. split; [reflexivity|]. split; [reflexivity|]. exists r. split; [symmetry; exact E|]. split; [exact V|]. split; assumption.
Qed.

(** The table of tones. *)
Definition row_ok (t : N) (l : string) (f : string) : bool :=
  match runes l, runes f with
  | [lr], [fr] =>
      String.eqb (of_runes [lr]) l && String.eqb (of_runes [fr]) f && valid_rune lr && valid_rune fr &&
      nlist_eqb (letter_of lr) (letter_of fr) && nlist_eqb (tone_of fr) [t] && normal_rune fr
  | _, _ => false
  end.

Lemma diacritic_check : forallb (fun tr : tone_row =>
    nlist_eqb (letter_of (fst tr)) [] && nlist_eqb (tone_of (fst tr)) [fst tr] &&
    forallb (fun lr => match snd lr with f :: _ => row_ok (fst tr) (fst lr) f | [] => true end) (snd tr)) diacritic = true.
Proof. vm_compute. reflexivity. Qed.

Lemma lookup_in {B} k (m : list (N * B)) v : lookup k m = Some v -> In (k, v) m.
Proof.
  induction m as [|[k' x] m IH]; cbn [lookup]; [discriminate|]. destruct (N.eqb_spec k k') as [->|]; [|right; auto].
  intro E. injection E as ->. left. reflexivity.
Qed.
Lemma slookup_in {B} k (m : list (string * B)) v : slookup k m = Some v -> In (k, v) m.
Proof.
  induction m as [|[k' x] m IH]; cbn [slookup]; [discriminate|]. destruct (String.eqb_spec k k') as [->|]; [|right; auto].
  intro E. injection E as ->. left. reflexivity.
Qed.

Lemma diacritic_runes t l f : diacritic_of t l = Ok f -> letter_of t = [] /\ tone_of t = [t] /\
  exists lr fr, l = of_runes [lr] /\ f = of_runes [fr] /\ valid [lr] /\ valid [fr] /\ letter_of lr = letter_of fr /\ tone_of fr = [t] /\ normal_rune fr = true.
Proof.
  unfold diacritic_of. destruct (lookup t diacritic) as [row|] eqn:L; [|discriminate]. destruct (slookup l row) as [[|f' fs]|] eqn:S; try discriminate.
  intro E. injection E as ->. apply lookup_in in L. apply slookup_in in S. pose proof diacritic_check as C. rewrite forallb_forall in C.
  specialize (C _ L). cbn [fst snd] in C. apply andb_prop in C. destruct C as [C R]. apply andb_prop in C. destruct C as [C1 C2].
  split; [apply nlist_eqb_eq, C1|]. split; [apply nlist_eqb_eq, C2|]. rewrite forallb_forall in R. specialize (R _ S). cbn [fst snd] in R.
  unfold row_ok in R. destruct (runes l) as [|lr [|]]; try discriminate. destruct (runes f) as [|fr [|]]; try discriminate.
  repeat match goal with H : (_ && _)%bool = true |- _ => apply andb_prop in H; destruct H end.
  exists lr, fr. repeat split; try (symmetry; apply String.eqb_eq; assumption); try (apply nlist_eqb_eq; assumption); try assumption; repeat constructor; assumption.
Qed.

(** ** Expressions *)

Section Text.

Variable is_punct : N -> bool.
Variable text : string.
Notation sem := (@sem toaq is_punct text).
Notation vsem := (@vsem toaq is_punct text).
Notation vstar := (@vstar toaq is_punct text).
Notation L := (String.length text).
Notation sk := (sk toaq_sk).
Notation vfits := (vfits is_punct).
Notation spells := (exp_spells toaq_sk).

Definition fine (v : val) : Prop := forall t, In t (atoks v) -> word_spelled is_punct text t.

Fixpoint deep (e : expr) (pos p : nat) (v : val) (en : env) : Prop :=
  vfits (sk e) v (slice text pos p) /\ fine v /\ Forall fine (map snd en) /\
  match e with
  | EClass rs => v = VStr (slice text pos p) /\ (forallb real rs = true -> exists r, In r rs /\ slice text pos p = of_runes [r])
  | ESeq a b => exists p1 v1 en1 v2 en2, en = en1 ++ en2 /\ pos <= p1 <= p /\ deep a pos p1 v1 en1 /\ deep b p1 p v2 en2
  | ELabel l e1 => en = [(l, v)] /\ exists en1, deep e1 pos p v en1
  | EAnd _ => p = pos /\ en = []
  | _ => True
  end.

Definition deep_out (e : expr) (pos : nat) (o : aout (val * env)) : Prop :=
  match o with AOk p (v, en) => deep e pos p v en | _ => True end.

Lemma stuck_deep e pos o : stuck o = true -> deep_out e pos o.
Proof. destruct o; [reflexivity|reflexivity|discriminate]. Qed.

Lemma deep_fits e pos p v en : deep e pos p v en -> vfits (sk e) v (slice text pos p) /\ fine v /\ Forall fine (map snd en).
Proof. destruct e; cbn [deep]; tauto. Qed.

Lemma fine_str s : fine (VStr s).
Proof. intros t []. Qed.
Lemma fine_unit : fine VUnit.
Proof. intros t []. Qed.

Lemma fine_vcat a b : fine (vcat a b).
Proof. destruct a; try apply fine_unit. destruct b; apply fine_unit. Qed.

Lemma fine_vplus a b : fine a -> fine b -> fine (vplus a b).
Proof.
  intros A B. destruct a; cbn [vplus]; try apply fine_unit.
  - destruct b; apply fine_unit.
  - match goal with n : node |- _ => destruct n end; try apply fine_unit. destruct b; try apply fine_unit.
    intros t T. cbn [atoks vtoks] in T. unfold toks in T. cbn [words] in T. rewrite flat_map_app, map_app, in_app_iff in T. cbn [flat_map] in T.
    rewrite app_nil_r in T. destruct T as [T|T]; [apply A|apply B]; exact T.
Qed.

Lemma fine_vplus0 a : fine a -> fine (vplus0 a).
Proof.
  intros A. destruct a; cbn [vplus0]; try apply fine_unit; try apply fine_str.
  intros t T. cbn [atoks vtoks] in T. unfold toks in T. cbn [words flat_map] in T. rewrite app_nil_r in T. apply A. exact T.
Qed.

Lemma get_label_fine l en v : Forall fine (map snd en) -> get_label l en = Some v -> fine v.
Proof.
  induction en as [|[l' x] en IH]; cbn [map snd get_label]; [discriminate|]. intros F E. inversion F; subst.
  destruct (Nat.eqb l l'); [injection E as <-; assumption|auto].
Qed.

Lemma get_labels_fine ls en vs : Forall fine (map snd en) -> get_labels ls en = Some vs -> Forall fine vs.
Proof.
  intro F. revert vs. induction ls as [|l ls IH]; cbn [get_labels]; intros vs E; [injection E as <-; constructor|].
  destruct (get_label l en) eqn:G; [|discriminate]. destruct (get_labels ls en); [|discriminate]. injection E as <-.
  constructor; [exact (get_label_fine _ _ _ F G)|auto].
Qed.

(** A word made of the string [s]. *)
Lemma fits_word k s i j : sk_word k = true -> vfits k (VStr s) (slice text i j) -> word_spelled is_punct text (s, i, j).
Proof.
  intros K F. unfold word_spelled. cbn [t_s t_e t_text fst snd].
  destruct k; try discriminate K; destruct F as (s' & E & F); injection E as <-; cbn [fits] in F.
  - right. destruct F as (a & b & -> & -> & V & W & A & B1 & B2 & C). unfold letters, tones, normal. rewrite !runes_back by assumption. repeat split; congruence || assumption.
  - right. destruct F as (a & b & -> & -> & V & W & A & B & C). unfold letters, tones, normal. rewrite !runes_back by assumption. repeat split; assumption.
  - left. destruct F as (-> & b & -> & V & A). split; [reflexivity|]. unfold separator. rewrite runes_back by assumption. exact A.
Qed.

Lemma wordy_fine a i j s v k : wordy a = true -> run_act a i j [VStr s] = Ok v -> sk_word k = true -> vfits k (VStr s) (slice text i j) -> fine v.
Proof.
  intros W E K F t T. pose proof (fits_word k s i j K F) as H.
  destruct a; try discriminate W; injection E as <-; destruct T as [<-|[]]; exact H.
Qed.

Lemma sk_word_str k v u : sk_word k = true -> vfits k v u -> exists s, v = VStr s.
Proof. destruct k; try discriminate; intros _ (s & -> & _); eauto. Qed.

Lemma dotless_fits rs r u : In r rs -> u = of_runes [r] ->
  forallb (fun r => real r && plain_rune (if N.eqb r 105 then 305%N else r)) rs = true ->
  vfits SPlain (VStr (if String.eqb u "i" then "ı" else u)) u.
Proof.
  intros I E F. rewrite forallb_forall in F. specialize (F r I). apply andb_prop in F. destruct F as [R P].
  eexists. split; [reflexivity|]. cbn [fits]. destruct (String.eqb_spec u "i") as [Q|Q].
  - exists [305%N], [105%N]. rewrite Q. repeat split; try reflexivity; repeat constructor.
  - destruct (N.eqb_spec r 105) as [->|X]; [exfalso; apply Q; rewrite E; reflexivity|]. destruct (plain_spec r P) as [A B].
    apply real_spec in R. exists [r], [r]. cbn [flat_map]. rewrite B. repeat split; try exact E; repeat constructor; tauto.
Qed.

Lemma diacritic_fits t l f u1 u2 x : vfits SPlain (VStr l) u1 -> vfits (SSign t) x u2 -> diacritic_of t l = Ok f ->
  vfits SSpell (VStr f) (u1 ++ u2).
Proof.
  intros (l' & E & (a & b & -> & -> & V & W & A & B1 & B2 & C)) (s & -> & (-> & r & -> & R1 & R2 & R3)) D. injection E as ->.
  apply diacritic_runes in D. destruct D as (_ & _ & lr & fr & D1 & -> & D2 & D3 & D4 & D5 & D6).
  apply of_runes_inj in D1; [|assumption..]. subst a. eexists. split; [reflexivity|]. exists [fr], (b ++ [r]).
  rewrite of_runes_app. cbn [flat_map] in *. rewrite !flat_map_app. cbn [flat_map]. rewrite R2, R3, B2, D5, <- D4, A, !app_nil_r.
  repeat split; try reflexivity; try assumption; [apply Forall_app; split; assumption|constructor; [exact D6|constructor]].
Qed.

Lemma add_tone_fits t d ton f u1 u2 : vfits SPlain (VStr d) u1 -> vfits (SSign t) (VStr ton) u2 -> add_tone d ton = Ok f ->
  vfits SSpell (VStr f) (u1 ++ u2).
Proof.
  intros (l' & E & (a & b & -> & -> & V & W & A & B1 & B2 & C)) (s & E2 & (-> & r & -> & R1 & R2 & R3)) D. injection E as ->. injection E2 as ->.
  unfold add_tone in D. apply bind_ok in D. destruct D as (y & D & D'). injection D' as <-.
  cbn [of_runes] in D. rewrite decode_encode_app in D by (inversion R1; assumption). cbn [fst] in D.
  apply diacritic_runes in D. destruct D as (T1 & T2 & lr & fr & D1 & -> & D2 & D3 & D4 & D5 & D6).
  destruct a as [|r0 a]; [cbn [of_runes stake] in D1; exfalso; cbn in D1; destruct (encode_rune lr) eqn:X; [exact (encode_rune_nonempty _ X)|discriminate]|].
  inversion V as [|? ? V1 V2]; subst. cbn [of_runes] in *. rewrite decode_encode_app in * by assumption. cbn [snd] in *.
  rewrite stake_app in D1. rewrite sdrop_app. rewrite sapp_nil_r in *.
  assert (r0 = lr).
  { assert (X : of_runes [r0] = of_runes [lr]) by (cbn [of_runes]; rewrite sapp_nil_r, D1, sapp_nil_r; reflexivity).
    apply of_runes_inj in X; [congruence|repeat constructor; assumption|assumption]. }
  subst r0. eexists. split; [reflexivity|]. exists (fr :: a), (b ++ [r]). rewrite of_runes_app. cbn [of_runes flat_map] in *. rewrite !flat_map_app. cbn [flat_map].
  apply app_eq_nil in B1. destruct B1 as [_ B1]. inversion C; subst. inversion D3; subst.
  rewrite B1, B2, R2, T2, D5, <- D4, A, !app_nil_r, ?sapp_nil_r. repeat split; try reflexivity; try assumption.
  - constructor; assumption.
  - apply Forall_app; split; assumption.
  - constructor; assumption.
Qed.

Ltac bnd V B O := pose proof (proj1 (spans_all is_punct text) _ _ _ V B O) as (? & _).

Lemma deep_all :
  (forall e pos o, vsem e pos o -> pos <= L -> exp_ok e = true -> spells e = true -> deep_out e pos o) /\
  (forall e pos v o, vstar e pos v o -> pos <= L -> exp_ok e = true -> spells e = true -> forall i, i <= pos ->
     vfits (sk_plus (sk e)) v (slice text i pos) -> fine v ->
     match o with AOk p (v', en) => vfits (sk_plus (sk e)) v' (slice text i p) /\ fine v' /\ en = [] | _ => True end).
Proof.
  apply vsem_star_ind; try (intros; apply stuck_deep; assumption || reflexivity).
  - intros e pos p k err T S B O X. destruct e; try discriminate T; cbn [deep_out deep].
    + split; [|split; [apply fine_str|split; [constructor|exact I]]]. inversion S; subst.
      replace (slice text pos (pos + String.length s)) with s; [apply lit_fits|].
      unfold slice. replace (pos + String.length s - pos) with (String.length s) by lia. match goal with H : sdrop _ _ = _ |- _ => rewrite H end.
      symmetry. apply stake_app.
    + inversion S; subst. assert (Q : forallb real rs = true -> slice text pos (pos + w) = of_runes [r]).
      { intro R. rewrite forallb_forall in R. apply (decode_slice text pos r w); [assumption|]. apply real_spec, R. assumption. }
      split; [apply (class_fits is_punct rs r); assumption|]. split; [apply fine_str|]. split; [constructor|]. split; [reflexivity|].
      intro R. exists r. auto.
    + split; [exact I|]. split; [apply fine_str|]. split; [constructor|exact I].
    + inversion S; subst. split; [|split; [apply fine_str|split; [constructor|exact I]]].
      eexists. split; [reflexivity|]. split; [reflexivity|]. exists [r].
      match goal with H : decode_rune _ = _ |- _ => destruct (decode_slice text pos r w H) as [Q V]; [assumption|] end.
      split; [exact Q|]. split; [repeat constructor; exact V|]. constructor; [right; assumption|constructor].
  - intros r pos p k err v en S V IH B O X. assert (N : r <> r_word) by (intros ->; discriminate O).
    specialize (IH B (toaq_exp_ok r N) (toaq_spells r N)). cbn [deep_out] in *. apply deep_fits in IH. destruct IH as (A1 & A2 & _).
    cbn [deep map]. split; [|split; [exact A2|split; [constructor|exact I]]]. cbn [SpellFacts.sk]. exact (vfits_le _ _ _ _ _ (toaq_table r) A1).
  - intros a b pos p1 v1 en1 p2 v2 en2 V1 I1 V2 I2 B O X. cbn [exp_ok exp_spells] in *. apply andb_prop in O, X. destruct O as [O1 O2], X as [X1 X2].
    bnd V1 B O1. assert (B1 : p1 <= L) by lia. bnd V2 B1 O2. specialize (I1 B O1 X1). specialize (I2 B1 O2 X2). cbn [deep_out] in *.
    pose proof (deep_fits _ _ _ _ _ I1) as (F1 & F2 & F3). pose proof (deep_fits _ _ _ _ _ I2) as (G1 & G2 & G3). cbn [deep].
    split; [|split; [apply fine_vcat|split]].
    + rewrite <- (slice_app text pos p1 p2) by lia. cbn [SpellFacts.sk]. apply vfits_cat; assumption.
    + rewrite map_app. apply Forall_app. split; assumption.
    + exists p1, v1, en1, v2, en2. repeat split; try lia; assumption.
  - intros a b pos o _ IH N B O X. cbn [exp_ok exp_spells] in *. apply andb_prop in O, X. specialize (IH B (proj1 O) (proj1 X)).
    destruct o as [| |p [v en]]; try exact I. cbn [deep_out] in *. apply deep_fits in IH. destruct IH as (A1 & A2 & A3). cbn [deep].
    split; [apply join_l; exact A1|tauto].
  - intros a b pos o _ _ _ IH B O X. cbn [exp_ok exp_spells] in *. apply andb_prop in O, X. specialize (IH B (proj2 O) (proj2 X)).
    destruct o as [| |p [v en]]; try exact I. cbn [deep_out] in *. apply deep_fits in IH. destruct IH as (A1 & A2 & A3). cbn [deep].
    split; [apply join_r; exact A1|tauto].
  - intros e pos p1 v1 en1 o V I1 _ I2 B O X. cbn [exp_ok exp_spells] in *. bnd V B O. specialize (I1 B O X). cbn [deep_out] in I1. apply deep_fits in I1.
    destruct I1 as (A1 & A2 & _). specialize (I2 ltac:(lia) O X pos ltac:(lia) (vfits_plus0 _ _ _ _ A1) (fine_vplus0 _ A2)).
    destruct o as [| |p [v en]]; try exact I. destruct I2 as (C1 & C2 & ->). cbn [deep_out deep map]. split; [exact C1|]. split; [exact C2|]. split; [constructor|exact I].
  - intros e pos p v en _ IH B O X. cbn [exp_ok exp_spells] in *. specialize (IH B O X). cbn [deep_out] in *. apply deep_fits in IH. destruct IH as (_ & A2 & _).
    cbn [deep map SpellFacts.sk]. split; [exact I|]. split; [exact A2|]. split; [constructor|exact I].
  - intros e pos _ _ B O X. cbn [deep_out deep map SpellFacts.sk]. split; [exact I|]. split; [intros t []|]. split; [constructor|exact I].
  - intros e pos p v _ _ B O X. cbn [deep_out deep map SpellFacts.sk]. rewrite slice_nil. split; [exists ""%string; repeat split|]. split; [apply fine_str|]. split; [constructor|]. split; reflexivity.
  - intros e pos _ _ B O X. cbn [deep_out deep map SpellFacts.sk]. rewrite slice_nil. split; [exists ""%string; repeat split|]. split; [apply fine_str|]. split; [constructor|exact I].
  - intros e pos o _ IH B O X. cbn [exp_ok exp_spells] in *. specialize (IH B O X). destruct o as [| |p [v en]]; try exact I. cbn [deep_out] in *. apply deep_fits in IH.
    cbn [deep SpellFacts.sk]. tauto.
  - intros l e pos p v en _ IH B O X. cbn [exp_ok exp_spells] in *. specialize (IH B O X). cbn [deep_out] in *. pose proof (deep_fits _ _ _ _ _ IH) as (A1 & A2 & _).
    cbn [deep map snd SpellFacts.sk]. split; [exact A1|]. split; [exact A2|]. split; [constructor; [exact A2|constructor]|]. split; [reflexivity|]. exists en. exact IH.
  - intros a args e pos p v en v' V IH E B O X. cbn [exp_ok exp_spells] in *. apply andb_prop in O, X. destruct O as [O1 O2], X as [X1 X2].
    specialize (IH B O1 X1). cbn [deep_out] in *. unfold run_action in E. destruct (get_labels args en) as [vs|] eqn:G; [|discriminate].
    pose proof (deep_fits _ _ _ _ _ IH) as (_ & _ & F3). pose proof (get_labels_fine _ _ _ F3 G) as Fv.
    assert (K : fine v' /\ vfits (sk (EAction a args e)) v' (slice text pos p)).
    { split.
      - destruct (wordy a) eqn:W.
        + unfold act_spells in X2. rewrite W in X2. destruct args as [|x [|]]; [discriminate X2| |exfalso; destruct e; try discriminate X2; destruct e1; discriminate X2].
          assert (Q : exists e1 v1 en1, sk_word (sk e1) = true /\ deep e1 pos p v1 en1 /\ vs = [v1]).
            { destruct e; try discriminate X2.
              - destruct e1; try discriminate X2. destruct e2; try discriminate X2. apply andb_prop in X2. destruct X2 as [Q1 Q2].
                apply Nat.eqb_eq in Q1. subst x. cbn [deep] in IH. destruct IH as (_ & _ & _ & p1 & v1 & en1 & v2 & en2 & -> & _ & (_ & _ & _ & -> & ->) & (_ & _ & _ & -> & en3 & D)).
                cbn [get_labels get_label app] in G. rewrite Nat.eqb_refl in G. injection G as <-. eauto 6.
              - apply andb_prop in X2. destruct X2 as [Q1 Q2]. apply Nat.eqb_eq in Q1. subst x. cbn [deep] in IH. destruct IH as (_ & _ & _ & -> & en3 & D).
                cbn [get_labels get_label app] in G. rewrite Nat.eqb_refl in G. injection G as <-. eauto 6. }
            destruct Q as (e1 & v1 & en1 & Q1 & Q2 & ->). apply deep_fits in Q2. destruct Q2 as (Q2 & _). destruct (sk_word_str _ _ _ Q1 Q2) as (s & ->).
            exact (wordy_fine _ _ _ _ _ _ W E Q1 Q2).
        + assert (N : a <> AWordSpace) by (intros ->; discriminate O2). intros t T. pose proof (act_toks _ _ _ _ _ E W N t T) as H.
          apply in_flat_map in H. destruct H as (x & Ix & H). rewrite Forall_forall in Fv. exact (Fv x Ix t H).
      - destruct a; try exact I; destruct args as [|x [|x' [|]]]; try exact I.
        + destruct e; try exact I. destruct e; try exact I. cbn [SpellFacts.sk]. destruct (_ && _) eqn:C; [|exact I]. apply andb_prop in C. destruct C as [C1 C2].
          apply Nat.eqb_eq in C1. subst x. cbn [deep] in IH. destruct IH as (_ & _ & _ & -> & en1 & _ & _ & _ & -> & R).
          cbn [get_labels get_label] in G. rewrite Nat.eqb_refl in G. injection G as <-. injection E as <-.
          assert (Rr : forallb real rs = true).
          { apply forallb_forall. intros y Y. rewrite forallb_forall in C2. specialize (C2 y Y). apply andb_prop in C2. tauto. }
          destruct (R Rr) as (r & R1 & R2). exact (dotless_fits rs r _ R1 R2 C2).
        + destruct e; try exact I. destruct e1; try exact I. cbn [SpellFacts.sk]. destruct (sk e1) eqn:K1; try exact I. destruct (sk e2) eqn:K2; try exact I.
          destruct (_ && _) eqn:C; [|exact I]. apply andb_prop in C. destruct C as [C1 C2]. apply Nat.eqb_eq in C1. apply N.eqb_eq in C2. subst.
          cbn [deep] in IH. destruct IH as (_ & _ & _ & p1 & v1 & en1 & v2 & en2 & -> & Bp & (_ & _ & _ & -> & en3 & D1) & D2).
          cbn [get_labels get_label app] in G. rewrite Nat.eqb_refl in G. injection G as <-. apply deep_fits in D1, D2. destruct D1 as (D1 & _), D2 as (D2 & _).
          rewrite K1 in D1. rewrite K2 in D2. destruct (sk_word_str SPlain _ _ eq_refl D1) as (s & ->). cbn [run_act] in E.
          apply bind_ok in E. destruct E as (f & Ef & E). injection E as <-. rewrite <- (slice_app text pos p1 p) by lia.
          exact (diacritic_fits _ _ _ _ _ _ D1 D2 Ef).
        + destruct e; try exact I. destruct e1; try exact I. destruct e2; try exact I. cbn [SpellFacts.sk]. destruct (sk e1) eqn:K1; try exact I. destruct (sk e2) eqn:K2; try exact I.
          destruct (_ && _) eqn:C; [|exact I]. apply andb_prop in C. destruct C as [C C3]. apply andb_prop in C. destruct C as [C1 C2].
          apply Nat.eqb_eq in C1, C2. subst. apply negb_true_iff in C3.
          cbn [deep] in IH. destruct IH as (_ & _ & _ & p1 & v1 & en1 & v2 & en2 & -> & Bp & (_ & _ & _ & -> & en3 & D1) & (_ & _ & _ & -> & en4 & D2)).
          cbn [get_labels get_label app] in G. rewrite Nat.eqb_sym in C3. rewrite C3, !Nat.eqb_refl in G. injection G as <-.
          apply deep_fits in D1, D2. destruct D1 as (D1 & _), D2 as (D2 & _).
          rewrite K1 in D1. rewrite K2 in D2. destruct (sk_word_str SPlain _ _ eq_refl D1) as (s & ->). assert (Z : exists s2, v2 = VStr s2) by (destruct D2 as (s2 & -> & _); eauto).
          destruct Z as (s2 & ->). cbn [run_act] in E.
          apply bind_ok in E. destruct E as (f & Ef & E). injection E as <-. rewrite <- (slice_app text pos p1 p) by lia.
          exact (add_tone_fits _ _ _ _ _ _ D1 D2 Ef). }
    destruct K as [K1 K2]. cbn [deep map]. split; [exact K2|]. split; [exact K1|]. split; [constructor|exact I].
  - intros e pos v _ _ B O X i Hi F1 F2. split; [exact F1|]. split; [exact F2|reflexivity].
  - intros; exact I.
  - intros e pos v p1 v1 en1 o V I1 _ I2 B O X i Hi F1 F2. bnd V B O. specialize (I1 B O X). cbn [deep_out] in I1. apply deep_fits in I1. destruct I1 as (A1 & A2 & _).
    apply I2; try assumption; try lia.
    + rewrite <- (slice_app text i pos p1) by lia. apply vfits_plus; assumption.
    + apply fine_vplus; assumption.
Qed.

Lemma text_spelled p n : reach is_punct text p -> fst (text_of is_punct p) = Ok (Got (Some n)) ->
  forall t, In t (toks n) -> word_spelled is_punct text t.
Proof.
  intros R E. apply (proj1 (text_sem _ _ p R)) in E. destruct E as (q & V).
  pose proof (proj1 deep_all _ _ _ V (Nat.le_0_l _) eq_refl eq_refl) as D. cbn [deep_out] in D. apply deep_fits in D. exact (proj1 (proj2 D)).
Qed.

End Text.
