(** Scopes in concrete texts. *)

From Coq Require Import String NArith List Bool Arith Lia.
From Verif Require Import Base Utf8 PegSyntax Tone Ast Parser ParserSpec AstCases Logic LogicWords LogicSpec ScopeSpec Interp Simplify LogicString LogicApi LogicCases.
From Verif Require LogicSafe AstSorts.
Import ListNotations.
Open Scope string_scope.
Open Scope list_scope.
Open Scope nat_scope.

Lemma unscoped_text text : match logic_of text with Ok (Some t) => match loose (snd t) 100 [] (fst t) with Some _ => true | None => false end | _ => false end = true ->
  exists d t, parses text d /\ outcome ascii_unicode d (Ok (Some t)) /\ ~ scoped t.
Proof.
  intros E. destruct (logic_of text) as [[t|]| |] eqn:L; try discriminate. destruct (loose (snd t) 100 [] (fst t)) as [v|] eqn:V; [|discriminate].
  destruct (unscoped _ _ _ _ L V) as (d & H). exists d, t. exact H.
Qed.

(** An argument that refers to hoa is lifted out of the argument that hoa stands for. *)
Lemma unscoped_hoa : exists text d t, parses text d /\ outcome ascii_unicode d (Ok (Some t)) /\ ~ scoped t.
Proof. exists "mai? ji/ poq/ maiV po/ hoa/ ". apply unscoped_text. vm_compute. reflexivity. Qed.
(** An argument that refers to a variable bound by ke is lifted out of its scope. *)
Lemma unscoped_ke : exists text d t, parses text d /\ outcome ascii_unicode d (Ok (Some t)) /\ ~ scoped t.
Proof. exists "ke do/ bi mai? poq/ maiV hoa/ do/ na suq/". apply unscoped_text. vm_compute. reflexivity. Qed.

Definition fo_text (text : string) : bool :=
  match discourse_of text with Some d => forallb (first_order ascii_unicode (o_letters diacritic)) d | None => false end.
Lemma first_order_text text s : fo_text text = true -> logic_string text = Ok s -> match logic_of text with Ok (Some _) => true | _ => false end = true ->
  exists d t, parses text d /\ outcome ascii_unicode d (Ok (Some t)) /\ prints ascii_unicode (Some t) s /\
    forall n, In n d -> sentence_item n -> first_order ascii_unicode (o_letters diacritic) n = true.
Proof.
  unfold fo_text, logic_string. intros F S L. unfold logic_of in *. destruct (discourse_of text) as [d|] eqn:D; [|discriminate].
  destruct (interpret ascii_unicode (o_letters diacritic) 100 d) as [[t|]| |] eqn:I; try discriminate. cbn [bind] in S. exists d, t. split.
  - unfold discourse_of in D. destruct (parsed text) as [n|] eqn:P; [|discriminate].
    destruct n as [lead d'| | | | | | | | | | | | | | | | | | | | | | | | | |]; try discriminate. injection D as ->. exists lead. apply parsed_ok, P.
  - split; [eapply outcome_intro; [exact I|discriminate]|]. split; [eapply prints_intro, S|]. intros n J _. rewrite forallb_forall in F. apply F, J.
Qed.
Lemma first_order_case :
  exists d t, parses "sa do/ bi mai? poq/ maiV hoa/ do/ na suq/" d /\ outcome ascii_unicode d (Ok (Some t)) /\
    prints ascii_unicode (Some t) "[ιS : suq(S)] ∃X [ΛP : poq(P) ∧ mai(P, X)] mai(P, S)." /\
    forall n, In n d -> sentence_item n -> first_order ascii_unicode (o_letters diacritic) n = true.
Proof. apply first_order_text; vm_compute; reflexivity. Qed.

(** The same tree: its three bindings are used, and no variable is free. *)
Definition refersb (h : heap) (x b : ref) : bool :=
  match nth_error h x with Some (CVariable _ (Some d) _) => d =? b | _ => false end.
Definition numberedb (t : ref * heap) (l : list ref) : bool :=
  match filter (unbound (snd t)) l with
  | [] => forallb (fun b => negb (binding (snd t) b) || existsb (fun x => refersb (snd t) x b) l) l
  | _ => false
  end.
Lemma numberedb_ok t l : numberedb t l = true ->
  NoDup (filter (unbound (snd t)) l) /\
  forall b, In b l -> binding (snd t) b = true -> exists x, In x l /\ refers (snd t) x b.
Proof.
  unfold numberedb. destruct (filter _ l); [|discriminate]. intros E. split; [constructor|]. rewrite forallb_forall in E. intros b I B.
  specialize (E b I). rewrite B in E. cbn in E. apply existsb_exists in E. destruct E as (x & J & R). exists x. split; [exact J|].
  unfold refersb in R. destruct (nth_error (snd t) x) as [[| | |n [d|] f| | | | | | ]|] eqn:X; try discriminate.
  apply Nat.eqb_eq in R. subst d. exists n, f. exact X.
Qed.
Lemma numbered_text text k : fo_text text = true ->
  match logic_of text with
  | Ok (Some t) => match visited (snd t) 100 (fst t) with
                   | Ok l => numberedb t l && (length (filter (introduces (snd t)) l) =? k)
                   | _ => false
                   end
  | _ => false
  end = true ->
  exists d t l, parses text d /\ outcome ascii_unicode d (Ok (Some t)) /\ nodes t l /\
    (forall n, In n d -> sentence_item n -> first_order ascii_unicode (o_letters diacritic) n = true) /\
    NoDup (filter (unbound (snd t)) l) /\ length (filter (introduces (snd t)) l) = k /\
    forall b, In b l -> binding (snd t) b = true -> exists x, In x l /\ refers (snd t) x b.
Proof.
  intros F N. destruct (logic_of text) as [[t|]| |] eqn:L; try discriminate.
  destruct (visited (snd t) 100 (fst t)) as [l| |] eqn:V; try discriminate. apply andb_prop in N. destruct N as [N K].
  apply numberedb_ok in N. apply Nat.eqb_eq in K. destruct (logic_of_ok _ _ L) as (d & P & O); [discriminate|].
  exists d, t, l. split; [exact P|]. split; [exact O|]. split; [exists 100; exact V|]. split; [|tauto].
  assert (D : discourse_of text = Some d).
  { unfold logic_of in L. destruct (discourse_of text) as [d'|] eqn:D; [|discriminate]. f_equal.
    unfold discourse_of in D. destruct (parsed text) as [n|] eqn:Q; [|discriminate].
    destruct n as [lead d2| | | | | | | | | | | | | | | | | | | | | | | | | |]; try discriminate. injection D as ->. apply parsed_ok in Q.
    destruct P as (lead' & P). congruence. }
  unfold fo_text in F. rewrite D in F. intros n J _. rewrite forallb_forall in F. apply F, J.
Qed.
Lemma first_order_numbered_case :
  exists d t l, parses "sa do/ bi mai? poq/ maiV hoa/ do/ na suq/" d /\ outcome ascii_unicode d (Ok (Some t)) /\ nodes t l /\
    (forall n, In n d -> sentence_item n -> first_order ascii_unicode (o_letters diacritic) n = true) /\
    NoDup (filter (unbound (snd t)) l) /\ length (filter (introduces (snd t)) l) = 3 /\
    forall b, In b l -> binding (snd t) b = true -> exists x, In x l /\ refers (snd t) x b.
Proof. apply numbered_text; vm_compute; reflexivity. Qed.

(** A text to which C30 applies. *)
Definition total_text : string := "sa do/ bi mai? poq/ maiV hoa/ do/ na to ru suq/ to tu poq/ da ru gi? suq/".
Definition total_ok (text : string) : bool :=
  match discourse_of text with
  | Some d => existsb is_sentence d &&
      forallb (fun n => LogicSafe.sentence_ok ascii_unicode n && (negb (is_sentence n) || first_order ascii_unicode (o_letters diacritic) n)) d
  | None => false
  end.
Lemma total_case : exists lead d,
  fst (text_of ascii_punct (new_parser total_text)) = Ok (Got (Some (NText lead d))) /\ has_sentence d /\
  forall n, In n d -> is_sentence n = true ->
    AstSorts.well_sorted n = true /\ supported ascii_unicode n = true /\ first_order ascii_unicode (o_letters diacritic) n = true.
Proof.
  assert (T : LogicSafe.text_ok total_text = true) by (vm_compute; reflexivity). destruct (LogicSafe.text_ok_case _ T) as (lead & d & P & H & S).
  exists lead, d. split; [exact P|]. split; [exact H|]. intros n I J. destruct (S n I J) as [A B]. split; [exact A|]. split; [exact B|].
  assert (Q : total_ok total_text = true) by (vm_compute; reflexivity). unfold total_ok, discourse_of, parsed in Q. rewrite P in Q.
  apply andb_true_iff in Q. destruct Q as [_ Q]. rewrite forallb_forall in Q. apply Q in I. rewrite J in I. apply andb_true_iff in I. apply I.
Qed.
