(** What main.go writes: C45 and C46. *)

From Coq Require Import String Ascii NArith List Bool Arith Lia.
From Verif Require Import Base Utf8 Utf8Facts PegSyntax Peg Tone Ast AstSorts Parser ParserFacts ParserSpec ApiFacts SortApi Visit VisitSpec VisitFacts Braces Dedup
  Logic LogicWords LogicSpec Interp Simplify LogicString OrderFacts LogicFuel LogicApi AstCases LogicCases SafeBase SimplifySafe LogicSafe LogicLoop App AppSpec AppFacts AppApi AppTotal
  ScopeSpec ScopeTotal ScopeCases Pretty Main MainSpec.
Import ListNotations.
Open Scope string_scope.
Open Scope list_scope.
Open Scope nat_scope.

(** ** Logical trees shown by pretty.String *)

Lemma map_res_ok {A B} (f : A -> res B) l : (forall x, In x l -> exists y, f x = Ok y) -> exists ys, map_res f l = Ok ys.
Proof.
  induction l as [|x l IH]; intros H; cbn; [eauto|]. destruct (H x (or_introl eq_refl)) as (y & ->). cbn.
  destruct IH as (ys & ->); [|cbn; eauto]. intros z I. apply H. right. exact I.
Qed.
Lemma flat_res_in {A B} (f : A -> res (list B)) l ys : flat_res f l = Ok ys -> forall x, In x l -> exists y, f x = Ok y.
Proof.
  revert ys. induction l as [|x l IH]; intros ys E z I; [destruct I|]. cbn in E. destruct (f x) as [y| |] eqn:Ex; try discriminate E.
  cbn in E. destruct (flat_res f l) as [b| |] eqn:El; try discriminate E. destruct I as [<-|I]; [eauto|]. exact (IH b eq_refl z I).
Qed.

Lemma value_ok h : forall f r l, visited h f r = Ok l -> exists v, cell_value h f r = Ok v.
Proof.
  induction f as [|f IH]; intros r l E; [discriminate|]. cbn [visited] in E. cbn [cell_value].
  destruct (nth_error h r) as [c|]; [|discriminate]. destruct (flat_res (visited h f) (below c)) as [b| |] eqn:Eb; try discriminate E.
  assert (B : forall x, In x (below c) -> exists v, cell_value h f x = Ok v) by (intros x I; destruct (flat_res_in _ _ _ Eb x I) as (y & Ey); eauto).
  clear E Eb. destruct c as [q n fo re sc|c l1 r1|p args|n df fo|args|t fu|name|st|l1 r1|p pos]; cbn [below] in B.
  - assert (O1 : exists v, match re with None => Ok GNil | Some x => cell_value h f x end = Ok v) by (destruct re; [apply B; left; reflexivity|eauto]).
    assert (O2 : exists v, match sc with None => Ok GNil | Some x => cell_value h f x end = Ok v)
      by (destruct sc; [apply B; apply in_or_app; right; left; reflexivity|eauto]).
    destruct O1 as (v1 & ->), O2 as (v2 & ->). cbn. eauto.
  - destruct (B l1) as (v1 & ->); [cbn; auto|]. destruct (B r1) as (v2 & ->); [cbn; auto|]. cbn. eauto.
  - destruct (B p) as (v1 & ->); [cbn; auto|]. cbn [bind].
    destruct (map_res_ok (fun o => match o with None => Ok GNil | Some x => cell_value h f x end) args) as (ys & ->); [|cbn; eauto].
    intros [x|] I; [|eauto]. apply B. right. apply in_flat_map. exists (Some x). split; [exact I|left; reflexivity].
  - eauto.
  - destruct (map_res_ok (fun o => match o with None => Ok GNil | Some x => cell_value h f x end) args) as (ys & ->); [|cbn; eauto].
    intros [x|] I; [|eauto]. apply B. apply in_flat_map. exists (Some x). split; [exact I|left; reflexivity].
  - eauto.
  - eauto.
  - destruct (B st) as (v1 & ->); [cbn; auto|]. cbn. eauto.
  - destruct (B l1) as (v1 & ->); [cbn; auto|]. destruct (B r1) as (v2 & ->); [cbn; auto|]. cbn. eauto.
  - destruct (B p) as (v1 & ->); [cbn; auto|]. cbn. eauto.
Qed.

Lemma le_map_res {A B} (f f' : A -> res B) l : (forall a, le_res (f a) (f' a)) -> le_res (map_res f l) (map_res f' l).
Proof.
  intros H. induction l as [|x l IH]; cbn; [apply le_res_refl|]. apply le_res_bind; [apply H|]. intros a.
  apply le_res_bind; [exact IH|]. intros b. apply le_res_refl.
Qed.
Lemma le_value h : forall f f' r, f <= f' -> le_res (cell_value h f r) (cell_value h f' r).
Proof.
  induction f as [|f IH]; intros f' r L; [left; reflexivity|]. destruct f' as [|f']; [lia|]. cbn [cell_value]. cbv zeta.
  assert (IH' : forall r, le_res (cell_value h f r) (cell_value h f' r)) by (intros; apply IH; lia).
  assert (O : forall o, le_res (match o with None => Ok GNil | Some x => cell_value h f x end) (match o with None => Ok GNil | Some x => cell_value h f' x end))
    by (intros [x|]; [apply IH'|apply le_res_refl]).
  destruct (nth_error h r) as [[]|]; try apply le_res_refl;
    repeat (apply le_res_bind; [first [apply IH'|apply O|apply le_map_res, O]|intros ?]); apply le_res_refl.
Qed.

(** ** The program *)

Section Main.
Variable is_punct : N -> bool.
Variable U : unicode.
Variable path : string.

Lemma le_writing {A} out (r r' : res A) f f' : le_res r r' -> (forall a, le_res (f a) (f' a)) -> le_res (writing out r f) (writing out r' f').
Proof. intros [->| ->] H; [left; reflexivity|]. destruct r'; cbn; [apply H|apply le_res_refl|apply le_res_refl]. Qed.

Definition logic_out (fuel : nat) (out : string) (d : list node) : res (string * ending) :=
  writing out (interpret U (o_letters diacritic) fuel d) (main_logic U fuel out).
Lemma logic_out_le out d n m : n <= m -> le_res (logic_out n out d) (logic_out m out d).
Proof.
  intros L. apply le_writing; [apply interpret_le, L|]. intros [[r h]|]; [|apply le_res_refl]. cbn [main_logic].
  apply le_writing; [apply le_visited, L|]. intros l. apply le_writing; [apply le_value, L|]. intros v. cbv zeta.
  apply le_writing; [apply le_print, L|]. intros s. apply le_res_refl.
Qed.

Section Run.
Variable input : string.
Let p0 := new_parser input.
Let p1 := snd (tree is_punct p0).
Let R0 : reach is_punct input p0 := RNew is_punct input.
Let R1 : reach is_punct input p1 := RTree is_punct input p0 R0.

Definition error_out (e : perror) : string := (pretty_fail "" (dedup (pe_tree e)) ++ newline ++ path ++ error_string e ++ newline)%string.
Definition syntax_out (t : pnode) (n : node) : string :=
  (pretty_node "" t ++ newline ++ pretty_value (node_value n) ++ newline ++ to_text n ++ newline ++ braces_string n ++ newline)%string.

Inductive main_case : Prop :=
  | MError e : fst (tree is_punct p0) = Ok (Err e) -> (forall fuel, main is_punct U fuel path input = Ok (error_out e, Exit 1)) -> main_case
  | MCrash : ~ no_digits input -> fst (text_of is_punct p0) = Panic PRuntime -> (forall fuel, main is_punct U fuel path input = Ok (""%string, Died PRuntime)) -> main_case
  | MFull t lead d : fst (tree is_punct p0) = Ok (Got (Some t)) -> fst (text_of is_punct p0) = Ok (Got (Some (NText lead d))) ->
      (forall fuel, main is_punct U fuel path input = logic_out fuel (syntax_out t (NText lead d)) d) -> main_case.

Lemma main_unfold fuel : main is_punct U fuel path input =
    match fst (tree is_punct p0) with
    | NoFuel => NoFuel | Panic q => Ok (""%string, Died q) | Ok (Err e) => Ok (error_out e, Exit 1)
    | Ok (Got pt) =>
        match fst (text_of is_punct (snd (tree is_punct p0))) with
        | NoFuel => NoFuel | Panic q => Ok (""%string, Died q)
        | Ok (Err e) => Ok (""%string, Died (PString (error_string e)))
        | Ok (Got None) => Ok (""%string, Died PRuntime)
        | Ok (Got (Some n)) => match pt with None => Ok (""%string, Died PRuntime) | Some t => logic_out fuel (syntax_out t n) (discourse_in n) end
        end
    end.
Proof.
  unfold main. fold p0. clear p1 R1. destruct (tree is_punct p0) as [[[pt|e]| |] p']; cbn [fst snd]; try reflexivity.
  destruct (text_of is_punct p') as [[[[n|]|e]| |] p'']; cbn [fst]; reflexivity.
Qed.

Lemma main_is : main_case.
Proof.
  assert (T0 := fun q => tree_no_panic is_punct input p0 q R0). assert (N0 := proj1 (ops_return is_punct input p0 R0)).
  assert (TT := text_tree is_punct input p1 p0 R1 R0). destruct TT as (TT & Nt & Nr & _).
  assert (P1 := fun q => text_panic is_punct input p1 q R1). assert (N1 := proj1 (proj2 (ops_return is_punct input p1 R1))).
  assert (Hi := proj1 (proj2 (history is_punct input p0 p1 R0 R1))).
  assert (Post := fun fuel => main_unfold fuel). fold p1 in Post.
  destruct (fst (tree is_punct p0)) as [[[t|]|e]|q|] eqn:ET; try congruence.
  - destruct (fst (text_of is_punct p1)) as [[[n|]|e]|q|] eqn:EX; try congruence.
    + assert (S := text_sorted is_punct input p1 n R1 EX). destruct S as [S _]. destruct n as [lead d| | | | | | | | | | | | | | | | | | | | | | | | | | ]; try discriminate S.
      apply (MFull t lead d); [exact ET| |exact Post].
      destruct (fst (text_of is_punct p0)) as [[[n|]|e]|q|]; cbn in Hi; try contradiction; congruence.
    + destruct TT as [TT _]. destruct TT as [e' X]; [eauto|discriminate].
    + destruct (P1 q eq_refl) as [-> D]. apply MCrash; try assumption.
      destruct (fst (text_of is_punct p0)) as [[[n|]|e]|q|]; cbn in Hi; try contradiction; congruence.
  - apply (MError e); assumption.
Qed.
End Run.

Lemma runs_at fuel input x : main is_punct U fuel path input = Ok x -> runs is_punct U path input x.
Proof.
  intros E. destruct (main_is input) as [e T P|D C P|t lead d T X P].
  - apply finally_const; [|discriminate]. intros f. rewrite P. rewrite P in E. exact E.
  - apply finally_const; [|discriminate]. intros f. rewrite P. rewrite P in E. exact E.
  - rewrite P in E. unfold runs. eapply finally_ext; [intros n; symmetry; apply P|].
    eapply finally_intro; [|exact E|discriminate]. intros a b L. apply logic_out_le, L.
Qed.

Lemma runs_inv input x : runs is_punct U path input x -> exists f0, forall f, f0 <= f -> main is_punct U f path input = Ok x.
Proof. intros [_ H]. exact H. Qed.

(** Status 1 exactly if the text does not parse. *)
Theorem main_error input out : runs is_punct U path input (out, Exit 1) <->
  exists e, fst (tree is_punct (new_parser input)) = Ok (Err e) /\
    out = (line (pretty_fail "" (dedup (pe_tree e))) ++ line (path ++ error_string e))%string.
Proof.
  assert (Eo : forall e, error_out e = (line (pretty_fail "" (dedup (pe_tree e))) ++ line (path ++ error_string e))%string)
    by (intros e; unfold error_out, line; rewrite !app_assoc_s; reflexivity).
  destruct (main_is input) as [e T P|D C P|t lead d T X P].
  - rewrite T. split.
    + intros A. destruct (runs_inv _ _ A) as (f & F). specialize (F f (le_n f)). rewrite P in F. injection F as <-. exists e. split; [reflexivity|apply Eo].
    + intros (e' & E & ->). injection E as <-. rewrite <- Eo. apply (runs_at 0). apply P.
  - split.
    + intros A. destruct (runs_inv _ _ A) as (f & F). specialize (F f (le_n f)). rewrite P in F. discriminate F.
    + intros (e & E & _). assert (Q := P 0). rewrite main_unfold, E in Q. discriminate Q.
  - rewrite T. split; [|intros (e & E & _); discriminate E].
    intros A. exfalso. destruct (runs_inv _ _ A) as (f & F). specialize (F f (le_n f)). rewrite P in F. unfold logic_out in F.
    destruct (interpret U (o_letters diacritic) f d) as [[[r h]|]|q|]; try discriminate F. cbn [writing main_logic] in F.
    destruct (visited h f r); try discriminate F. cbn [writing] in F. destruct (cell_value h f r); try discriminate F. cbn [writing] in F. destruct (string_ U f (Some (r, h))); discriminate F.
Qed.

Lemma syntax_is t n : syntax_out t n = syntax_part t n.
Proof. unfold syntax_out, syntax_part, line. rewrite to_text_words, !app_assoc_s. reflexivity. Qed.
Lemma prints_at f t s : string_ U f t = Ok s -> prints U t s.
Proof. apply prints_intro. Qed.

(** Status 0: the whole report. *)
Theorem main_full input out : runs is_punct U path input (out, Exit 0) <->
  exists t lead d l,
    fst (tree is_punct (new_parser input)) = Ok (Got (Some t)) /\
    fst (text_of is_punct (new_parser input)) = Ok (Got (Some (NText lead d))) /\
    logic_part U d l /\ out = (syntax_part t (NText lead d) ++ l)%string.
Proof.
  destruct (main_is input) as [e T P|D C P|t lead d T X P].
  - rewrite T. split; [|intros (t & lead & d & l & E & _); discriminate E].
    intros A. destruct (runs_inv _ _ A) as (f & F). specialize (F f (le_n f)). rewrite P in F. discriminate F.
  - split.
    + intros A. destruct (runs_inv _ _ A) as (f & F). specialize (F f (le_n f)). rewrite P in F. discriminate F.
    + intros (t & lead & d & l & _ & E & _). congruence.
  - assert (It := parsed_items _ _ _ _ _ (RNew is_punct input) X). split.
    + intros A. destruct (runs_inv _ _ A) as (f & F). specialize (F f (le_n f)). rewrite P in F. unfold logic_out in F. rewrite syntax_is in F.
      exists t, lead, d. destruct (interpret U (o_letters diacritic) f d) as [[[r h]|]|q|] eqn:Ei; try discriminate F; cbn [writing main_logic] in F.
      * destruct (visited h f r) as [vs| |] eqn:Ev; try discriminate F. cbn [writing] in F. destruct (cell_value h f r) as [v| |] eqn:Ec; try discriminate F. cbn [writing] in F.
        destruct (string_ U f (Some (r, h))) as [s| |] eqn:Es; try discriminate F. cbn [writing] in F. injection F as <-.
        exists (line (pretty_value v) ++ line s)%string. split; [exact T|]. split; [exact X|]. split; [right; exists r, h, v, s|unfold line; rewrite !app_assoc_s; reflexivity].
        split; [eapply outcome_intro; [exact Ei|discriminate]|]. split; [eapply finally_intro; [intros; apply le_value; assumption|exact Ec|discriminate]|].
        split; [eapply prints_at, Es|reflexivity].
      * injection F as <-. exists (line "fragment"). split; [exact T|]. split; [exact X|]. split; [left; split; [|reflexivity]|reflexivity].
        apply (no_sentence U d It). eapply outcome_intro; [exact Ei|discriminate].
    + intros (t' & lead' & d' & l & T' & X' & L & ->). rewrite T in T'. rewrite X in X'. injection T' as <-. injection X' as <- <-.
      destruct L as [(N & ->)|(r & h & v & s & O & V & S & ->)].
      * apply (no_sentence U d It) in N. destruct N as [_ (f & N)]. apply (runs_at f). rewrite P. unfold logic_out. rewrite (N f (le_n f)). cbn [writing main_logic]. rewrite syntax_is. reflexivity.
      * destruct O as [_ (f1 & O)], V as [_ (f2 & V)], S as (f3 & S). set (f := f1 + f2 + f3). apply (runs_at f). rewrite P. unfold logic_out.
        rewrite (O f) by lia. cbn [writing main_logic]. assert (S' := S f ltac:(lia)). unfold string_, print in S'.
        destruct (visited h f r) as [vs| |] eqn:Ev; try discriminate S'. cbn [writing]. rewrite (V f) by lia. cbn [writing]. rewrite (S f) by lia. cbn [writing].
        rewrite syntax_is. unfold line. rewrite !app_assoc_s. reflexivity.
Qed.

(** No other status. *)
Theorem main_status input out n : runs is_punct U path input (out, Exit n) -> n = 0 \/ n = 1.
Proof.
  intros A. destruct (runs_inv _ _ A) as (f & F). specialize (F f (le_n f)). destruct (main_is input) as [e T P|D C P|t lead d T X P]; rewrite P in F.
  - injection F as _ <-. auto.
  - discriminate F.
  - unfold logic_out in F. destruct (interpret U (o_letters diacritic) f d) as [[[r h]|]|q|]; try discriminate F; cbn [writing main_logic] in F; [|injection F as _ <-; auto].
    destruct (visited h f r); try discriminate F. cbn [writing] in F. destruct (cell_value h f r); try discriminate F. cbn [writing] in F. destruct (string_ U f (Some (r, h))); try discriminate F.
    cbn [writing] in F. injection F as _ <-. auto.
Qed.

(** Panics. *)
Theorem main_died input out q : runs is_punct U path input (out, Died q) ->
  (q = PRuntime /\ out = ""%string /\ ~ no_digits input) \/
  exists t lead d l,
    fst (tree is_punct (new_parser input)) = Ok (Got (Some t)) /\
    fst (text_of is_punct (new_parser input)) = Ok (Got (Some (NText lead d))) /\
    out = (syntax_part t (NText lead d) ++ l)%string /\
    (outcome U d (Panic q) \/ exists st, outcome U d (Ok (Some st)) /\ finally (fun fuel => string_ U fuel (Some st)) (Panic q)).
Proof.
  intros A. destruct (runs_inv _ _ A) as (f & F). specialize (F f (le_n f)). destruct (main_is input) as [e T P|D C P|t lead d T X P]; rewrite P in F.
  - discriminate F.
  - injection F as <- <-. auto.
  - right. exists t, lead, d. unfold logic_out in F. rewrite syntax_is in F.
    assert (Fs : forall st q, string_ U f (Some st) = Panic q -> finally (fun fuel => string_ U fuel (Some st)) (Panic q)).
    { intros st q' E. eapply finally_intro; [|exact E|discriminate]. intros a b L. apply le_print, L. }
    assert (Nil : forall s : string, s = (s ++ "")%string) by (intros s; induction s; cbn; congruence).
    destruct (interpret U (o_letters diacritic) f d) as [[[r h]|]|q'|] eqn:Ei; try discriminate F; cbn [writing main_logic] in F.
    + assert (O : outcome U d (Ok (Some (r, h)))) by (eapply outcome_intro; [exact Ei|discriminate]).
      destruct (visited h f r) as [vs|q'|] eqn:Ev; try discriminate F; cbn [writing] in F.
      * destruct (value_ok h f r vs Ev) as (v & Ec). rewrite Ec in F. cbn [writing] in F. destruct (string_ U f (Some (r, h))) as [s|q'|] eqn:Es; try discriminate F. cbn [writing] in F.
        injection F as <- <-. eexists. split; [exact T|]. split; [exact X|]. split; [reflexivity|]. right. exists (r, h). split; [exact O|]. apply Fs, Es.
      * injection F as <- <-. exists ""%string. split; [exact T|]. split; [exact X|]. split; [apply Nil|]. right. exists (r, h). split; [exact O|]. apply Fs.
        unfold string_, print. rewrite Ev. reflexivity.
    + injection F as <- <-. exists ""%string. split; [exact T|]. split; [exact X|]. split; [apply Nil|]. left. eapply outcome_intro; [exact Ei|discriminate].
Qed.

Theorem main_supported input : no_digits input ->
  (forall lead d, fst (text_of is_punct (new_parser input)) = Ok (Got (Some (NText lead d))) ->
    forall n, In n d -> is_sentence n = true -> well_sorted n = true /\ supported U n = true) ->
  forall out q, ~ runs is_punct U path input (out, Died q).
Proof.
  intros D S out q A. apply main_died in A. destruct A as [(_ & _ & N)|(t & lead & d & l & T & X & _ & [O|(st & O & F)])]; [exact (N D)| |].
  - exact (text_no_panic is_punct input _ lead d U (RNew is_punct input) X (S _ _ X) _ O).
  - destruct F as [_ [n F]]. specialize (F n (le_n n)).
    exact (text_print_no_panic is_punct input _ lead d U (RNew is_punct input) X (S _ _ X) (Some st) O _ _ _ _ F).
Qed.

Theorem settled_ends input : fst (text_of is_punct (new_parser input)) <> Panic PRuntime -> settles is_punct U input ->
  exists out n, runs is_punct U path input (out, Exit n).
Proof.
  intros D Pl. destruct (main_is input) as [e T P|C T P|t lead d T X P].
  - exists (error_out e), 1. apply (runs_at 0), P.
  - destruct (D T).
  - destruct (Pl _ _ X) as (st & [_ (f1 & O)] & f2 & F). set (f := f1 + f2).
    exists (match logic_out f (syntax_out t (NText lead d)) d with Ok (o, _) => o | _ => ""%string end), 0. apply (runs_at f). rewrite P. unfold logic_out.
    rewrite (O f) by lia. cbn [writing]. destruct st as [[r h]|]; [|reflexivity]. cbn [main_logic].
    destruct (F (fun k => k) false f ltac:(lia)) as (s & Es). change (string_ U f (Some (r, h)) = Ok s) in Es. assert (S' := Es). unfold string_, print in S'.
    destruct (visited h f r) as [vs| |] eqn:Ev; try discriminate S'. cbn [writing]. destruct (value_ok h f r vs Ev) as (v & ->). cbn [writing]. rewrite Es. reflexivity.
Qed.
Theorem main_ends input : no_digits input -> plain_sentences is_punct U input ->
  exists out n, runs is_punct U path input (out, Exit n).
Proof. intros D P. apply settled_ends; [apply no_digits_quiet, D|apply plain_settles, P]. Qed.
End Main.

(** ** Cases *)

Lemma main_crashes : runs ascii_punct ascii_unicode "" "dai4" (""%string, Died PRuntime).
Proof. apply (runs_at _ _ _ 0). vm_compute. reflexivity. Qed.

Lemma main_panics : exists out, runs ascii_punct ascii_unicode "" "gi? ro hui?" (out, Died (PString "impossible: ro")).
Proof. eexists. apply (runs_at _ _ _ 40). vm_compute. reflexivity. Qed.

(** This text never gets there. *)
Lemma main_hangs : exists text, forall x, ~ runs ascii_punct ascii_unicode "" text x.
Proof.
  destruct loops as (text & d & (lead & P) & _ & N). exists text. intros x A.
  destruct (main_is ascii_punct ascii_unicode "" text) as [e T Q|D C Q|t lead' d' T X Q].
  - assert (TT := text_tree ascii_punct text _ _ (RNew _ _) (RNew _ _)). destruct TT as ((_ & TT) & _). rewrite P in TT. destruct TT; eauto. discriminate.
  - congruence.
  - rewrite P in X. injection X as <- <-. destruct (runs_inv _ _ _ _ _ A) as (f & F). specialize (F f (le_n f)). rewrite Q in F. unfold logic_out in F.
    destruct (interpret ascii_unicode (o_letters diacritic) f d) as [a|q|] eqn:E; [| |discriminate F]; eapply N; eapply outcome_intro; (exact E || discriminate).
Qed.
