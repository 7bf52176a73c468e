(** What the server and the bot answer: C39 and C40. *)

From Coq Require Import String Ascii NArith List Bool Arith Lia.
From Verif Require Import Base Utf8 Utf8Facts PegSyntax Peg Tone Ast AstSorts Parser ParserFacts ParserSpec ApiFacts SortApi Visit VisitSpec VisitFacts Braces
  Logic LogicWords LogicSpec Interp Simplify LogicString OrderFacts LogicFuel LogicApi AstCases LogicCases SafeBase SimplifySafe LogicSafe LogicLoop App AppSpec AppFacts.
Import ListNotations.
Open Scope string_scope.
Open Scope list_scope.
Open Scope nat_scope.

Lemma finally_intro {A} (f : nat -> res A) fuel r : (forall a b, a <= b -> le_res (f a) (f b)) -> f fuel = r -> r <> NoFuel -> finally f r.
Proof. intros M E N. split; [exact N|]. exists fuel. intros f' L. destruct (M _ _ L); congruence. Qed.
Lemma finally_at {A} (f : nat -> res A) r : finally f r -> exists fuel, f fuel = r.
Proof. intros (_ & fuel & H). exists fuel. apply H, le_n. Qed.
Lemma finally_const {A} (f : nat -> res A) r : (forall fuel, f fuel = r) -> r <> NoFuel -> finally f r.
Proof. intros H N. split; [exact N|]. exists 0. intros; apply H. Qed.

(** toString *)
Definition put_text (s : string) (w : word) : string := (s ++ w_t w)%string.
Lemma fold_text l : forall s, fold_left put_text l s = (s ++ String.concat "" (map w_t l))%string.
Proof.
  induction l as [|w l IH]; intros s; cbn [fold_left map]; [cbn; induction s; cbn; congruence|]. rewrite IH. unfold put_text. rewrite app_assoc_s.
  f_equal. destruct l as [|w' l]; cbn; [induction (w_t w); cbn; congruence|reflexivity].
Qed.
Definition text_step : unit -> option node -> string -> option unit * string :=
  func_visitor (fun o s => match o with Some (NWord w) => (s ++ w_t w)%string | _ => s end).
Lemma shown_text :
  (forall n l, shown n l -> forall s, traverse text_step tt n s (fold_left put_text (flat_map word_of l) s)) /\
  (forall ns l, shown_all ns l -> forall s, traverse_all text_step tt ns s (fold_left put_text (flat_map word_of l) s)).
Proof.
  apply shown_mut.
  - intros n l _ IH s. cbn [flat_map]. rewrite flat_map_app, !fold_left_app. cbn [flat_map word_of fold_left app].
    eapply TDown; [reflexivity|apply IH|]. unfold text_step, func_visitor. f_equal. destruct n; reflexivity.
  - intros s. constructor.
  - intros n l a b _ IHa _ IHb s. rewrite flat_map_app, fold_left_app. econstructor; [apply IHa|apply IHb].
Qed.
Lemma to_text_words n : to_text n = String.concat "" (map w_t (words n)).
Proof.
  unfold to_text. change (visit text_step n tt "" = String.concat "" (map w_t (words n))).
  apply visit_is_traverse. rewrite <- visit_words. assert (F := fold_text (flat_map word_of (visit (func_visitor record) n tt [])) ""). cbn [String.append] in F. rewrite <- F.
  exact (proj1 shown_text n _ (proj1 (visit_shown n _) eq_refl) "").
Qed.

Section App.

Variable is_punct : N -> bool.
Variable U : unicode.

(** ** The server *)

Section Post.
Variable input : string.
Let p0 := new_parser input.
Let p1 := snd (tree is_punct p0).
Let R0 : reach is_punct input p0 := RNew is_punct input.
Let R1 : reach is_punct input p1 := RTree is_punct input p0 R0.

Definition logic_field (fuel : nat) (x : option (ref * heap) * option string) : res string :=
  match x with
  | (_, Some err) => Ok err
  | (None, None) => Ok "fragment"
  | (Some st, None) => pretty_string U fuel (Some st)
  end.
Definition full (fuel : nat) (n : node) (t : pnode) : res response :=
  bind (safe_interp U fuel (discourse_in n)) (fun x => bind (logic_field fuel x) (fun l =>
  Ok (RFull (Analysis (braces_string n) n (to_text n) (pretty_node "" t) l)))).

Inductive post_case : Prop :=
  | PError e : fst (tree is_punct p0) = Ok (Err e) -> (forall fuel, post is_punct U fuel input = Ok (RError (error_string e))) -> post_case
  | PCrash : ~ no_digits input -> fst (text_of is_punct p0) = Panic PRuntime -> (forall fuel, post is_punct U fuel input = Panic PRuntime) -> post_case
  | PFull t lead d : fst (tree is_punct p0) = Ok (Got (Some t)) -> fst (text_of is_punct p0) = Ok (Got (Some (NText lead d))) ->
      (forall fuel, post is_punct U fuel input = full fuel (NText lead d) t) -> post_case.

Lemma post_unfold fuel : post is_punct U fuel input =
    match fst (tree is_punct p0) with
    | NoFuel => NoFuel | Panic q => Panic q | Ok (Err e) => Ok (RError (error_string e))
    | Ok (Got pt) =>
        match fst (text_of is_punct (snd (tree is_punct p0))) with
        | NoFuel => NoFuel | Panic q => Panic q
        | Ok (Err e) => Panic (PString ("impossible error: " ++ error_string e))
        | Ok (Got None) => Panic (PString "impossible nil text")
        | Ok (Got (Some n)) => match pt with None => Panic PRuntime | Some t => full fuel n t end
        end
    end.
Proof.
  unfold post. fold p0. clear p1 R1. destruct (tree is_punct p0) as [[[pt|e]| |] p']; cbn [fst snd]; try reflexivity.
  destruct (text_of is_punct p') as [[[[n|]|e]| |] p'']; cbn [fst]; reflexivity.
Qed.

Lemma post_is : post_case.
Proof.
  assert (T0 := fun q => tree_no_panic is_punct input p0 q R0). assert (N0 := proj1 (ops_return is_punct input p0 R0)).
  assert (TT := text_tree is_punct input p1 p0 R1 R0). destruct TT as (TT & Nt & Nr & _).
  assert (P1 := fun q => text_panic is_punct input p1 q R1). assert (N1 := proj1 (proj2 (ops_return is_punct input p1 R1))).
  assert (Hi := proj1 (proj2 (history is_punct input p0 p1 R0 R1))).
  assert (Post := fun fuel => post_unfold fuel). fold p1 in Post.
  destruct (fst (tree is_punct p0)) as [[[t|]|e]|q|] eqn:ET; try congruence.
  - destruct (fst (text_of is_punct p1)) as [[[n|]|e]|q|] eqn:EX; try congruence.
    + assert (S := text_sorted is_punct input p1 n R1 EX). destruct S as [S _]. destruct n as [lead d| | | | | | | | | | | | | | | | | | | | | | | | | | ]; try discriminate S.
      apply (PFull t lead d); [exact ET| |exact Post].
      destruct (fst (text_of is_punct p0)) as [[[n|]|e]|q|]; cbn in Hi; try contradiction; congruence.
    + destruct TT as [TT _]. destruct TT as [e' X]; [eauto|discriminate].
    + destruct (P1 q eq_refl) as [-> D]. apply PCrash; try assumption.
      destruct (fst (text_of is_punct p0)) as [[[n|]|e]|q|]; cbn in Hi; try contradiction; congruence.
  - apply (PError e); assumption.
Qed.
End Post.

(** ** Results that need a bound *)

Lemma finally_fun {A} (f : nat -> res A) r r' : finally f r -> finally f r' -> r = r'.
Proof. intros [_ [n H]] [_ [n' H']]. rewrite <- (H (n + n')) by lia. apply H'. lia. Qed.
Lemma finally_ext {A} (f g : nat -> res A) r : (forall n, f n = g n) -> finally f r -> finally g r.
Proof. intros E [N [n H]]. split; [exact N|]. exists n. intros m L. rewrite <- E. auto. Qed.
Lemma finally_bind {A B} (f : nat -> res A) (g : A -> nat -> res B) a r : finally f (Ok a) -> finally (g a) r ->
  finally (fun n => bind (f n) (fun a => g a n)) r.
Proof.
  intros [_ [n H]] [N [n' H']]. split; [exact N|]. exists (n + n'). intros m L. rewrite H by lia. cbn [bind]. apply H'. lia.
Qed.
Lemma finally_bind_panic {A B} (f : nat -> res A) (g : A -> nat -> res B) q : finally f (Panic q) ->
  finally (fun n => bind (f n) (fun a => g a n)) (Panic q).
Proof. intros [_ [n H]]. split; [discriminate|]. exists n. intros m L. rewrite H by lia. reflexivity. Qed.
Lemma finally_inv {A B} (f : nat -> res A) (g : A -> nat -> res B) r : (forall n m, n <= m -> le_res (f n) (f m)) ->
  finally (fun n => bind (f n) (fun a => g a n)) r ->
  (exists a, finally f (Ok a) /\ finally (g a) r) \/ exists q, r = Panic q /\ finally f (Panic q).
Proof.
  intros L [N [n H]].
  assert (C : f n <> NoFuel -> forall m, n <= m -> f m = f n).
  { intros X m K. destruct (L n m K); congruence. }
  destruct (f n) as [a|q|] eqn:E.
  - left. exists a. split; [split; [discriminate|exists n; intros m K; rewrite C; congruence]|].
    split; [exact N|]. exists n. intros m K. rewrite <- (H m K), C by congruence. reflexivity.
  - right. exists q. split; [rewrite <- (H n (le_n n)), E; reflexivity|].
    split; [discriminate|exists n; intros m K; rewrite C; congruence].
  - exfalso. apply N. rewrite <- (H n (le_n n)), E. reflexivity.
Qed.
Lemma finally_ok {A} (a : A) r : finally (fun _ => Ok a) r <-> r = Ok a.
Proof.
  split; [intros H|intros ->].
  - eapply finally_fun; [exact H|]. split; [discriminate|]. exists 0. reflexivity.
  - split; [discriminate|]. exists 0. reflexivity.
Qed.
(** ** The answers *)

Lemma no_sentence d : (forall n, In n d -> among items n = true) -> outcome U d (Ok None) <-> ~ has_sentence d.
Proof.
  intros I. split; [intros O; apply (outcome_nil U d None O); reflexivity|]. intros N. apply outcome_fragments. intros n J.
  destruct (item_kind n (I n J)) as [F|F]; [exact F|]. exfalso. apply N. exists n. split; [exact J|].
  destruct n as [ | |je st da| | | | | | | | | | | | | | | | | | | | | |k f t w l r| | ]; try discriminate F.
  - left. eauto.
  - destruct k; try discriminate F. right. eauto 6.
Qed.

Lemma safe_le d n m : n <= m -> le_res (safe_interp U n d) (safe_interp U m d).
Proof.
  intros L. unfold safe_interp. destruct (le_interpret U (o_letters diacritic) (o_letters diacritic) (fun _ => eq_refl) n m d L) as [->| ->]; [left; reflexivity|apply le_res_refl].
Qed.
Lemma safe_cases d x : finally (fun n => safe_interp U n d) x <->
  (exists t, outcome U d (Ok t) /\ x = Ok (t, None)) \/
  (exists s, outcome U d (Panic (PString s)) /\ x = Ok (None, Some ("bug: " ++ s)%string)) \/
  (outcome U d (Panic PRuntime) /\ x = Ok (None, None)).
Proof.
  split.
  - intros [N [n H]]. assert (E := H n (le_n n)). unfold safe_interp in E.
    destruct (interpret U (o_letters diacritic) n d) as [t|[s|]|] eqn:I; [| | |congruence];
      apply outcome_intro in I; try discriminate; eauto 6.
  - intros [(t & [_ [n O]] & ->)|[(s & [_ [n O]] & ->)|[[_ [n O]] ->]]]; (split; [discriminate|]); exists n; intros m L;
      unfold safe_interp; rewrite (O m L); reflexivity.
Qed.
Lemma logic_le x n m : n <= m -> le_res (logic_field n x) (logic_field m x).
Proof. intros L. destruct x as [[t|] [e|]]; try apply le_res_refl. apply le_print, L. Qed.

Lemma logic_cases d s : (forall n, In n d -> among items n = true) ->
  finally (fun n => bind (safe_interp U n d) (fun x => logic_field n x)) s <-> logic_shown U d s.
Proof.
  intros I. split.
  - intros H. apply (finally_inv (fun n => safe_interp U n d) (fun x n => logic_field n x)) in H; [|exact (safe_le d)].
    destruct H as [(x & S & L)|(q & -> & S)].
    + apply safe_cases in S. destruct S as [([t|] & O & E)|[(m & O & E)|[O E]]]; injection E as ->; cbn [logic_field] in L.
      * exact (LForm _ _ _ _ O L).
      * apply finally_ok in L. subst s. apply LFragment, no_sentence; assumption.
      * apply finally_ok in L. subst s. apply LBug, O.
      * apply finally_ok in L. subst s. apply LLost, O.
    + apply safe_cases in S. destruct S as [(t & _ & E)|[(m & _ & E)|[_ E]]]; discriminate E.
  - intros [N|t r O F|m O|O].
    + apply (finally_bind (fun n => safe_interp U n d) (fun x n => logic_field n x) (None, None)); [|apply finally_ok; reflexivity].
      apply safe_cases. left. exists None. split; [|reflexivity]. apply no_sentence; assumption.
    + apply (finally_bind (fun n => safe_interp U n d) (fun x n => logic_field n x) (Some t, None)); [|exact F].
      apply safe_cases. left. eauto.
    + eapply (finally_bind (fun n => safe_interp U n d) (fun x n => logic_field n x)); [apply safe_cases; right; left; eauto|].
      apply finally_ok. reflexivity.
    + eapply (finally_bind (fun n => safe_interp U n d) (fun x n => logic_field n x)); [apply safe_cases; right; right; eauto|].
      apply finally_ok. reflexivity.
Qed.

(** An answer is an error exactly when Tree fails, and then it holds the error. *)
Theorem post_error input m : answers is_punct U input (Ok (RError m)) <->
  exists e, fst (tree is_punct (new_parser input)) = Ok (Err e) /\ m = error_string e.
Proof.
  destruct (post_is input) as [e T P|D C P|t lead d T X P].
  - rewrite T. split.
    + intros A. exists e. split; [reflexivity|]. apply (finally_ext _ (fun _ => Ok (RError (error_string e)))) in A; [|exact P].
      apply finally_ok in A. congruence.
    + intros (e' & E & ->). injection E as <-. apply finally_const; [exact P|discriminate].
  - split.
    + intros [_ [n A]]. specialize (A n (le_n n)). congruence.
    + intros (e & E & _). assert (Q := P 0). rewrite post_unfold, E in Q. discriminate Q.
  - rewrite T. split; [|intros (e & E & _); discriminate E].
    intros A. exfalso. apply (finally_ext _ (fun n => full n (NText lead d) t)) in A; [|exact P]. destruct A as [_ [n A]].
    specialize (A n (le_n n)). unfold full in A. apply bind_ok in A. destruct A as (x & _ & A). apply bind_ok in A.
    destruct A as (l & _ & A). discriminate A.
Qed.

Lemma full_is n lead d t : full n (NText lead d) t = bind (bind (safe_interp U n d) (fun x => logic_field n x)) (fun l =>
  Ok (RFull (Analysis (braces_string (NText lead d)) (NText lead d) (to_text (NText lead d)) (pretty_node "" t) l))).
Proof. unfold full. cbn [discourse_in]. destruct (safe_interp U n d) as [x| |]; reflexivity. Qed.
Lemma field_le d n m : n <= m ->
  le_res (bind (safe_interp U n d) (fun x => logic_field n x)) (bind (safe_interp U m d) (fun x => logic_field m x)).
Proof. intros L. apply le_res_bind; [apply safe_le, L|]. intros x. apply logic_le, L. Qed.

(** Otherwise the answer holds these five. *)
Theorem post_full input a : answers is_punct U input (Ok (RFull a)) <->
  exists t lead d l,
    fst (tree is_punct (new_parser input)) = Ok (Got (Some t)) /\
    fst (text_of is_punct (new_parser input)) = Ok (Got (Some (NText lead d))) /\
    logic_shown U d (Ok l) /\
    a = Analysis (braces_string (NText lead d)) (NText lead d)
          (String.concat "" (map w_t (words (NText lead d)))) (pretty_node "" t) l.
Proof.
  destruct (post_is input) as [e T P|D C P|t lead d T X P].
  - rewrite T. split; [|intros (t & lead & d & l & E & _); discriminate E].
    intros A. apply (finally_ext _ (fun _ => Ok (RError (error_string e)))) in A; [|exact P]. apply finally_ok in A. discriminate A.
  - split.
    + intros [_ [n A]]. specialize (A n (le_n n)). congruence.
    + intros (t & lead & d & l & E & X & _). congruence.
  - assert (It := parsed_items _ _ _ _ _ (RNew is_punct input) X). split.
    + intros A. apply (finally_ext _ (fun n => full n (NText lead d) t)) in A; [|exact P].
      apply (finally_ext _ _ _ (fun n => full_is n lead d t)) in A.
      apply (finally_inv (fun n => bind (safe_interp U n d) (fun x => logic_field n x)) (fun l _ => Ok _)) in A; [|exact (field_le d)].
      destruct A as [(l & L & A)|(q & A & _)]; [|discriminate A]. apply finally_ok in A. injection A as ->. apply (logic_cases d _ It) in L.
      exists t, lead, d, l. rewrite to_text_words. auto.
    + intros (t' & lead' & d' & l & T' & X' & L & ->). rewrite T in T'. rewrite X in X'. injection T' as <-. injection X' as <- <-.
      apply (finally_ext (fun n => full n (NText lead d) t)); [intros n; symmetry; apply P|].
      apply (finally_ext _ _ _ (fun n => eq_sym (full_is n lead d t))).
      apply (finally_bind (fun n => bind (safe_interp U n d) (fun x => logic_field n x)) (fun l _ => Ok _) l); [apply (logic_cases d _ It), L|].
      apply finally_ok. rewrite to_text_words. reflexivity.
Qed.

(** A panic is a runtime error: never one of those that server.go calls impossible. *)
Theorem post_panic input q : answers is_punct U input (Panic q) ->
  q = PRuntime /\ (~ no_digits input \/
    exists lead d t, fst (text_of is_punct (new_parser input)) = Ok (Got (Some (NText lead d))) /\ outcome U d (Ok (Some t)) /\
      finally (fun fuel => pretty_string U fuel (Some t)) (Panic q)).
Proof.
  destruct (post_is input) as [e T P|D C P|t lead d T X P]; intros A.
  - destruct A as [_ [n A]]. specialize (A n (le_n n)). congruence.
  - destruct A as [_ [n A]]. specialize (A n (le_n n)). split; [congruence|]. left. exact D.
  - assert (It := parsed_items _ _ _ _ _ (RNew is_punct input) X).
    apply (finally_ext _ (fun n => full n (NText lead d) t)) in A; [|exact P].
    apply (finally_ext _ _ _ (fun n => full_is n lead d t)) in A.
    apply (finally_inv (fun n => bind (safe_interp U n d) (fun x => logic_field n x)) (fun l _ => Ok _)) in A; [|exact (field_le d)].
    destruct A as [(l & L & A)|(q' & A & L)]; [apply finally_ok in A; discriminate A|]. injection A as <-. apply (logic_cases d _ It) in L.
    inversion L as [|st r O F| |]; subst. split; [|right; exists lead, d, st; auto].
    destruct F as [_ [n F]]. specialize (F n (le_n n)). assert (Q := print_quiet U (fun k => k) true n (Some st)).
    unfold pretty_string in F. rewrite F in Q. destruct q; [contradiction|reflexivity].
Qed.

(** No panic for a supported text without digits. *)
Theorem post_supported input : no_digits input ->
  (forall lead d, fst (text_of is_punct (new_parser input)) = Ok (Got (Some (NText lead d))) ->
    forall n, In n d -> is_sentence n = true -> well_sorted n = true /\ supported U n = true) ->
  forall q, ~ answers is_punct U input (Panic q).
Proof.
  intros D S q A. apply post_panic in A. destruct A as [_ [N|(lead & d & t & X & O & F)]]; [exact (N D)|].
  destruct F as [_ [n F]]. specialize (F n (le_n n)).
  exact (text_print_no_panic is_punct input _ lead d U (RNew is_punct input) X (S _ _ X) (Some t) O _ _ _ _ F).
Qed.

(** The field Logic is "fragment" for texts without sentences and for those that Interpret
    fails on other than by one of its own panics. *)
Theorem post_fragment input a : answers is_punct U input (Ok (RFull a)) ->
  exists lead d, a_ast a = NText lead d /\ (a_logic a = "fragment"%string <-> ~ has_sentence d \/ outcome U d (Panic PRuntime)).
Proof.
  intros A. apply post_full in A. destruct A as (t & lead & d & l & T & X & L & ->). exists lead, d. split; [reflexivity|]. cbn [a_logic].
  split.
  - intros ->. inversion L as [N|st r O F|m O E|O]; subst; auto. exfalso.
    destruct F as [_ [n F]]. specialize (F n (le_n n)). exact (pretty_not_fragment U n st _ F eq_refl).
  - assert (It := parsed_items _ _ _ _ _ (RNew is_punct input) X).
    intros K. assert (Z : logic_shown U d (Ok "fragment"%string)) by (destruct K; [apply LFragment|apply LLost]; assumption).
    apply (logic_cases d _ It) in Z. apply (logic_cases d _ It) in L. assert (E := finally_fun _ _ _ L Z). congruence.
Qed.

(** ** The bot *)

Lemma prefix_drop p : forall s, String.prefix p s = true <-> s = (p ++ sdrop (String.length p) s)%string.
Proof.
  induction p as [|c p IH]; intros s; [destruct s; split; reflexivity|]. destruct s as [|c' s]; [split; discriminate|].
  cbn. destruct (ascii_dec c c') as [->|N].
  - rewrite (IH s). split; [intros E; f_equal; exact E|intros E; injection E as E; exact E].
  - split; [discriminate|]. intros E. injection E as E _. congruence.
Qed.
Lemma sdrop_app p s : sdrop (String.length p) (p ++ s) = s.
Proof. induction p; auto. Qed.
Lemma asked_or_not m : (String.prefix ".miu" (m_text (fix_bridge m)) = false /\ forall x, ~ asked U m x) \/
  (String.prefix ".miu" (m_text (fix_bridge m)) = true /\
   asked U m (trim_space U (trim_space U (sdrop 4 (m_text (fix_bridge m))))) /\
   forall x, asked U m x -> x = trim_space U (trim_space U (sdrop 4 (m_text (fix_bridge m))))).
Proof.
  destruct (String.prefix ".miu" (m_text (fix_bridge m))) eqn:P; [right|left].
  - split; [reflexivity|]. apply prefix_drop in P. split; [eexists; split; [exact P|reflexivity]|].
    intros x (rest & E & ->). rewrite E. change 4 with (String.length ".miu"). rewrite sdrop_app. reflexivity.
  - split; [reflexivity|]. intros x (rest & E & _). rewrite E in P. destruct rest; discriminate P.
Qed.

Definition math_of (fuel : nat) (d : list node) : res string :=
  bind (interpret U (o_letters diacritic) fuel d) (fun st =>
  match st with None => Ok "fragment" | Some t => pretty_string U fuel (Some t) end).
Definition math_field (st : option (ref * heap)) (fuel : nat) : res string :=
  match st with None => Ok "fragment" | Some t => pretty_string U fuel (Some t) end.
Lemma interpret_le d n m : n <= m -> le_res (interpret U (o_letters diacritic) n d) (interpret U (o_letters diacritic) m d).
Proof. apply le_interpret. reflexivity. Qed.
Lemma math_le d n m : n <= m -> le_res (math_of n d) (math_of m d).
Proof.
  intros L. apply le_res_bind; [apply interpret_le, L|]. intros [t|]; [apply le_print, L|apply le_res_refl].
Qed.
Lemma math_ok d s : (forall n, In n d -> among items n = true) -> finally (fun n => math_of n d) (Ok s) <-> said U d s.
Proof.
  intros I. split.
  - intros H. apply (finally_inv (fun n => interpret U (o_letters diacritic) n d) math_field) in H; [|exact (interpret_le d)].
    destruct H as [([t|] & O & F)|(q & E & _)]; [| |discriminate E].
    + right. exists t. auto.
    + apply finally_ok in F. left. split; [apply no_sentence; assumption|congruence].
  - intros [[N ->]|(t & O & F)].
    + apply (finally_bind (fun n => interpret U (o_letters diacritic) n d) math_field None); [apply no_sentence; assumption|].
      apply finally_ok. reflexivity.
    + apply (finally_bind (fun n => interpret U (o_letters diacritic) n d) math_field (Some t)); assumption.
Qed.
Lemma math_panic d q : finally (fun n => math_of n d) (Panic q) -> outcome U d (Panic q) \/
  exists t, outcome U d (Ok (Some t)) /\ finally (fun fuel => pretty_string U fuel (Some t)) (Panic q).
Proof.
  intros H. apply (finally_inv (fun n => interpret U (o_letters diacritic) n d) math_field) in H; [|exact (interpret_le d)].
  destruct H as [([t|] & O & F)|(q' & E & O)]; [| |left; injection E as ->; exact O].
  - right. eauto.
  - apply finally_ok in F. discriminate F.
Qed.

Definition parse_of (fuel : nat) (x : string) : res (option string) :=
  match fst (text_of is_punct (new_parser x)) with
  | NoFuel => NoFuel
  | Panic q => Panic q
  | Ok (Err e) => Ok (Some ("syntax error " ++ error_string e)%string)
  | Ok (Got None) => Panic PRuntime
  | Ok (Got (Some n)) => bind (math_of fuel (discourse_in n)) (fun s => Ok (Some (with_newline (braces_string n) ++ s)%string))
  end.
Lemma on_message_is fuel m : on_message is_punct U fuel m =
  if String.prefix ".miu" (m_text (fix_bridge m)) then parse_of fuel (trim_space U (trim_space U (sdrop 4 (m_text (fix_bridge m)))))
  else Ok None.
Proof.
  unfold on_message. destruct (String.prefix _ _); [|reflexivity]. unfold bot_parse, parse_of.
  destruct (text_of is_punct _) as [[[[n|]|e]|q|] p]; cbn [fst bind]; try reflexivity.
  unfold math_of. destruct (interpret _ _ _ _) as [st| |]; cbn [bind]; try reflexivity.
  destruct st; cbn [bind]; [|reflexivity]. destruct (pretty_string _ _ _); reflexivity.
Qed.

Inductive bot_case (x : string) : Prop :=
  | BError e : fst (text_of is_punct (new_parser x)) = Ok (Err e) ->
      (forall fuel, parse_of fuel x = Ok (Some ("syntax error " ++ error_string e)%string)) -> bot_case x
  | BCrash : ~ no_digits x -> fst (text_of is_punct (new_parser x)) = Panic PRuntime ->
      (forall fuel, parse_of fuel x = Panic PRuntime) -> bot_case x
  | BText lead d : fst (text_of is_punct (new_parser x)) = Ok (Got (Some (NText lead d))) ->
      (forall n, In n d -> among items n = true) ->
      (forall fuel, parse_of fuel x = bind (math_of fuel d) (fun s => Ok (Some (with_newline (braces_string (NText lead d)) ++ s)%string))) ->
      bot_case x.
Lemma bot_is x : bot_case x.
Proof.
  assert (R := RNew is_punct x). assert (N := proj1 (proj2 (ops_return is_punct x _ R))).
  assert (P := fun q => text_panic is_punct x _ q R). destruct (text_tree is_punct x _ _ R R) as (_ & G & _ & _).
  destruct (fst (text_of is_punct (new_parser x))) as [[[n|]|e]|q|] eqn:E; try congruence.
  - assert (S := text_sorted is_punct x _ n R E). destruct S as [S _].
    destruct n as [lead d| | | | | | | | | | | | | | | | | | | | | | | | | | ]; try discriminate S.
    apply (BText x lead d E); [exact (parsed_items _ _ _ _ _ R E)|]. intros fuel. unfold parse_of. rewrite E. reflexivity.
  - apply (BError x e E). intros fuel. unfold parse_of. rewrite E. reflexivity.
  - destruct (P q eq_refl) as [-> D]. apply (BCrash x D E). intros fuel. unfold parse_of. rewrite E. reflexivity.
Qed.

(** The bot keeps silent exactly if the message does not begin with ".miu". *)
Theorem bot_silent m : replies is_punct U m (Ok None) <-> ~ String.prefix ".miu" (m_text (fix_bridge m)) = true.
Proof.
  destruct (asked_or_not m) as [[P N]|(P & A & N)]; rewrite P.
  - split; [discriminate|]. intros _. apply finally_const; [|discriminate]. intros fuel. rewrite on_message_is, P. reflexivity.
  - split; [|congruence]. intros [_ [n R]]. exfalso. specialize (R n (le_n n)). rewrite on_message_is, P in R.
    destruct (bot_is (trim_space U (trim_space U (sdrop 4 (m_text (fix_bridge m)))))) as [e E Q|D C Q|lead d E I Q]; rewrite Q in R;
      try discriminate R. apply bind_ok in R. destruct R as (s & _ & R). discriminate R.
Qed.

Theorem bot_says m s : replies is_punct U m (Ok (Some s)) <->
  exists x, asked U m x /\
    ((exists e, fst (text_of is_punct (new_parser x)) = Ok (Err e) /\ s = ("syntax error " ++ error_string e)%string) \/
     (exists lead d math, fst (text_of is_punct (new_parser x)) = Ok (Got (Some (NText lead d))) /\ said U d math /\
        s = (with_newline (braces_string (NText lead d)) ++ math)%string)).
Proof.
  assert (E := fun fuel => on_message_is fuel m).
  destruct (asked_or_not m) as [[P N]|(P & A & N)]; rewrite P in E.
  - split.
    + intros R. apply (finally_ext _ (fun _ => Ok None)) in R; [|exact E]. apply finally_ok in R. discriminate R.
    + intros (x & A & _). destruct (N x A).
  - set (x := trim_space U (trim_space U (sdrop 4 (m_text (fix_bridge m))))) in *.
    transitivity (finally (fun fuel => parse_of fuel x) (Ok (Some s))).
    { split; apply finally_ext; [exact E|intros n; symmetry; apply E]. }
    transitivity ((exists e, fst (text_of is_punct (new_parser x)) = Ok (Err e) /\ s = ("syntax error " ++ error_string e)%string) \/
     (exists lead d math, fst (text_of is_punct (new_parser x)) = Ok (Got (Some (NText lead d))) /\ said U d math /\
        s = (with_newline (braces_string (NText lead d)) ++ math)%string)).
    2: { split; [intros H; exists x; auto|]. intros (x' & A' & H). rewrite (N x' A') in H. exact H. }
    destruct (bot_is x) as [e T Q|D T Q|lead d T I Q]; rewrite T.
    + split.
      * intros R. apply (finally_ext _ _ _ Q), finally_ok in R. injection R as ->. left. eauto.
      * intros [(e' & X & ->)|(lead & d & math & X & _)]; [|discriminate X]. injection X as <-.
        apply finally_const; [exact Q|discriminate].
    + split.
      * intros [_ [n R]]. specialize (R n (le_n n)). rewrite Q in R. discriminate R.
      * intros [(e' & X & ->)|(lead & d & math & X & _)]; discriminate X.
    + split.
      * intros R. apply (finally_ext _ _ _ Q) in R.
        apply (finally_inv (fun n => math_of n d) (fun s _ => Ok (Some (with_newline (braces_string (NText lead d)) ++ s)%string))) in R;
          [|exact (math_le d)].
        destruct R as [(math & M & R)|(q & R & _)]; [|discriminate R]. apply finally_ok in R. injection R as ->.
        right. exists lead, d, math. split; [reflexivity|]. split; [apply math_ok; assumption|reflexivity].
      * intros [(e' & X & ->)|(lead' & d' & math & X & S & ->)]; [discriminate X|]. injection X as <- <-.
        apply (finally_ext _ _ _ (fun n => eq_sym (Q n))).
        apply (finally_bind (fun n => math_of n d) (fun s _ => Ok (Some (with_newline (braces_string (NText lead d)) ++ s)%string)) math);
          [apply math_ok; assumption|]. apply finally_ok. reflexivity.
Qed.

Theorem bot_panic m q : replies is_punct U m (Panic q) -> exists x, asked U m x /\
  ((q = PRuntime /\ ~ no_digits x) \/
   exists lead d, fst (text_of is_punct (new_parser x)) = Ok (Got (Some (NText lead d))) /\
     (outcome U d (Panic q) \/ exists t, outcome U d (Ok (Some t)) /\ finally (fun fuel => pretty_string U fuel (Some t)) (Panic q))).
Proof.
  assert (E := fun fuel => on_message_is fuel m). intros R.
  destruct (asked_or_not m) as [[P N]|(P & A & N)]; rewrite P in E; apply (finally_ext _ _ _ E) in R.
  - apply finally_ok in R. discriminate R.
  - eexists. split; [exact A|]. destruct (bot_is (trim_space U (trim_space U (sdrop 4 (m_text (fix_bridge m)))))) as [e T Q|D T Q|lead d T I Q];
      apply (finally_ext _ _ _ Q) in R.
    + apply finally_ok in R. discriminate R.
    + left. destruct R as [_ [n R]]. specialize (R n (le_n n)). split; [congruence|exact D].
    + right. exists lead, d. split; [exact T|].
      apply (finally_inv (fun n => math_of n d) (fun s _ => Ok (Some (with_newline (braces_string (NText lead d)) ++ s)%string))) in R;
          [|exact (math_le d)].
      destruct R as [(math & M & R)|(q' & R & M)]; [apply finally_ok in R; discriminate R|]. injection R as <-. apply math_panic, M.
Qed.

Theorem bot_supported m : (forall x, asked U m x -> no_digits x /\
    forall lead d, fst (text_of is_punct (new_parser x)) = Ok (Got (Some (NText lead d))) ->
    forall n, In n d -> is_sentence n = true -> well_sorted n = true /\ supported U n = true) ->
  forall q, ~ replies is_punct U m (Panic q).
Proof.
  intros H q R. apply bot_panic in R. destruct R as (x & A & [[_ D]|(lead & d & T & K)]); destruct (H x A) as [N S]; [exact (D N)|].
  destruct K as [O|(t & O & [_ [n F]])].
  - exact (text_no_panic is_punct x _ lead d U (RNew is_punct x) T (S _ _ T) q O).
  - specialize (F n (le_n n)).
    exact (text_print_no_panic is_punct x _ lead d U (RNew is_punct x) T (S _ _ T) (Some t) O _ _ _ _ F).
Qed.

End App.

(** ** The bridge *)

Lemma colon_at s : forall n a b, String.index n ": " s = None -> s = (a ++ ": " ++ b)%string -> n <= String.length a -> False.
Proof.
  intros n a b H -> L. refine (String.index_correct3 n (String.length a) _ _ H _ L _); [discriminate|]. clear.
  induction a as [|c a IH]; [destruct b; reflexivity|exact IH].
Qed.
Lemma index_none s : String.index 0 ": " s = None -> ~ contains ": " s.
Proof. intros H (a & b & E). exact (colon_at s 0 a b H E (Nat.le_0_l _)). Qed.
Lemma cut_at : forall s i t, String.substring i (String.length t) s = t ->
  s = (String.substring 0 i s ++ t ++ sdrop (i + String.length t) s)%string.
Proof.
  induction s as [|c s IH]; intros i t E.
  - destruct i, t; cbn in *; try discriminate; reflexivity.
  - destruct i as [|i].
    + clear IH. cbn [Nat.add String.substring String.append]. 
      assert (K : forall s t, String.substring 0 (String.length t) s = t -> s = (t ++ sdrop (String.length t) s)%string).
      { clear. intros s t. revert s. induction t as [|x t IH]; intros s E; [destruct s; reflexivity|].
        destruct s as [|y s]; [discriminate E|]. cbn in *. injection E as -> E. f_equal. apply IH, E. }
      apply K in E. exact E.
    + cbn [String.substring Nat.add sdrop String.append]. f_equal. apply IH. exact E.
Qed.
Lemma index_some s i : String.index 0 ": " s = Some i ->
  exists name, s = (name ++ ": " ++ sdrop (i + 2) s)%string /\ ~ contains ": " name.
Proof.
  intros H. exists (String.substring 0 i s). assert (E := String.index_correct1 _ _ _ _ H). split; [apply (cut_at s i ": "), E|].
  intros (a & b & C). assert (S := cut_at s i ": " E).
  assert (L : String.length a < i).
  { assert (K : forall s n, String.length (String.substring 0 n s) <= n).
    { clear. induction s as [|c s IH]; intros [|n]; cbn; try lia. specialize (IH n). lia. }
    specialize (K s i). rewrite C, !slength_app in K. cbn in K. lia. }
  apply (String.index_correct2 _ _ _ _ H (String.length a)); [lia|exact L|]. rewrite S, C, !app_assoc_s. clear.
  induction a as [|c a IH]; [cbn; destruct (b ++ _)%string; reflexivity|exact IH].
Qed.

(** A message of the bridge loses what is before its first ": ", and that too; others are
    left alone. *)
Theorem bridge_cut m :
  m_from (fix_bridge m) = m_from m /\
  (m_from m <> Some bridge -> m_text (fix_bridge m) = m_text m) /\
  (m_from m = Some bridge ->
    (~ contains ": " (m_text m) /\ m_text (fix_bridge m) = m_text m) \/
    exists name, m_text m = (name ++ ": " ++ m_text (fix_bridge m))%string /\ ~ contains ": " name).
Proof.
  unfold fix_bridge. destruct m as [[nick|] text]; cbn [m_from m_text]; [|split; [reflexivity|split; [reflexivity|discriminate]]].
  destruct (String.eqb nick "ToaqBridgeBot") eqn:B.
  - apply String.eqb_eq in B. subst nick. cbn [negb orb String.prefix].
    change (String.prefix "Toaq Telegram" "ToaqBridgeBot") with false. cbn [orb].
    split; [destruct (String.index 0 ": " text); reflexivity|]. split; [intros X; destruct (X eq_refl)|]. intros _.
    destruct (String.index 0 ": " text) as [i|] eqn:I; cbn [m_text].
    + right. apply index_some, I.
    + left. split; [apply index_none, I|reflexivity].
  - cbn [negb orb]. split; [reflexivity|]. split; [reflexivity|]. intros X. injection X as ->. discriminate B.
Qed.

(** ** Cases *)

Lemma post_le is_punct U input n m : n <= m -> le_res (post is_punct U n input) (post is_punct U m input).
Proof.
  intros L. destruct (post_is is_punct U input) as [e T P|D C P|t lead d T X P]; rewrite !P; try apply le_res_refl.
  rewrite !full_is. apply le_res_bind; [apply field_le, L|]. intros; apply le_res_refl.
Qed.
Lemma on_message_le is_punct U x n m : n <= m -> le_res (on_message is_punct U n x) (on_message is_punct U m x).
Proof.
  intros L. rewrite !on_message_is. destruct (String.prefix _ _); [|apply le_res_refl].
  destruct (bot_is is_punct U (trim_space U (trim_space U (sdrop 4 (m_text (fix_bridge x)))))) as [e T P|D C P|lead d T X P];
    rewrite !P; try apply le_res_refl.
  apply le_res_bind; [apply math_le, L|]. intros; apply le_res_refl.
Qed.
Lemma answers_at is_punct U input fuel r : post is_punct U fuel input = r -> r <> NoFuel -> answers is_punct U input r.
Proof. intros E N. exact (finally_intro _ fuel r (post_le is_punct U input) E N). Qed.
Lemma replies_at is_punct U m fuel r : on_message is_punct U fuel m = r -> r <> NoFuel -> replies is_punct U m r.
Proof. intros E N. exact (finally_intro _ fuel r (on_message_le is_punct U m) E N). Qed.

(** A number crashes the parser. *)
Lemma post_crashes : answers ascii_punct ascii_unicode "dai4" (Panic PRuntime).
Proof. apply (answers_at _ _ _ 0); [vm_compute; reflexivity|discriminate]. Qed.
Lemma bot_crashes : replies ascii_punct ascii_unicode (Message None ".miu dai4") (Panic PRuntime).
Proof. apply (replies_at _ _ _ 0); [vm_compute; reflexivity|discriminate]. Qed.
Lemma bot_panics : replies ascii_punct ascii_unicode (Message None ".miu gi? ro hui?") (Panic (PString "impossible: ro")).
Proof. apply (replies_at _ _ _ 20); [vm_compute; reflexivity|discriminate]. Qed.

(** A sentence, but the field is "fragment". *)
Lemma post_says_fragment : exists a lead d,
  answers ascii_punct ascii_unicode "hao? ji/ giV na ru de? " (Ok (RFull a)) /\
  a_ast a = NText lead d /\ a_logic a = "fragment"%string /\ has_sentence d.
Proof.
  destruct (post ascii_punct ascii_unicode 60 "hao? ji/ giV na ru de? ") as [[|a]| |] eqn:E; try (vm_compute in E; discriminate E).
  assert (A := answers_at _ _ _ _ _ E ltac:(discriminate)). destruct (post_fragment _ _ _ _ A) as (lead & d & X & F).
  exists a, lead, d. split; [exact A|]. split; [exact X|]. vm_compute in E. injection E as <-. split; [reflexivity|].
  cbn [a_ast] in X. injection X as <- <-. eexists. split; [left; reflexivity|]. left. eauto.
Qed.

(** No answer at all. *)
Lemma post_hangs : exists text, forall r, ~ answers ascii_punct ascii_unicode text r.
Proof.
  destruct loops as (text & d & (lead & P) & _ & N). exists text. intros r A.
  destruct (post_is ascii_punct ascii_unicode text) as [e T Q|D C Q|t lead' d' T X Q].
  - assert (TT := text_tree ascii_punct text _ _ (RNew _ _) (RNew _ _)). destruct TT as ((_ & TT) & _). rewrite P in TT. destruct TT; eauto. discriminate.
  - congruence.
  - rewrite P in X. injection X as <- <-. apply (finally_ext _ _ _ Q) in A.
    assert (It := parsed_items _ _ _ _ _ (RNew _ _) P).
    apply (finally_ext _ _ _ (fun n => full_is ascii_unicode n lead d t)) in A.
    apply (finally_inv (fun n => bind (safe_interp ascii_unicode n d) (fun x => logic_field ascii_unicode n x)) (fun l _ => Ok _)) in A;
      [|exact (field_le _ d)].
    assert (Z : forall x, ~ logic_shown ascii_unicode d x).
    { intros x [K|t' r' O F|m O|O]; try (eapply N, O). eapply N. apply (no_sentence ascii_unicode d It), K. }
    destruct A as [(l & L & _)|(q & _ & L)]; apply (logic_cases _ d _ It) in L; exact (Z _ L).
Qed.

Lemma digits_free s : forallb (fun c => negb ((49 <=? N_of_ascii c) && (N_of_ascii c <=? 55))%N) (list_ascii_of_string s) = true -> no_digits s.
Proof.
  intros H c I [A B]. rewrite forallb_forall in H. apply H in I. apply N.leb_le in A. apply N.leb_le in B. rewrite A, B in I. discriminate I.
Qed.
Lemma supported_message : exists lead d,
  fst (text_of ascii_punct (new_parser supported_text)) = Ok (Got (Some (NText lead d))) /\ has_sentence d /\
  (forall n, In n d -> is_sentence n = true -> well_sorted n = true /\ supported ascii_unicode n = true) /\
  no_digits supported_text /\ asked ascii_unicode (Message None (".miu " ++ supported_text)) supported_text.
Proof.
  destruct supported_case as (lead & d & P & S & W). exists lead, d. split; [exact P|]. split; [exact S|]. split; [exact W|].
  split; [apply digits_free; vm_compute; reflexivity|]. eexists. split; [reflexivity|]. vm_compute. reflexivity.
Qed.
