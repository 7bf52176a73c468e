(** Texts whose simplified meaning says something else, and one where it does not. *)

From Coq Require Import String NArith List Bool Arith Lia.
From Verif Require Import Base Utf8 PegSyntax Tone Ast Parser ParserSpec AstCases AstSorts Logic LogicWords LogicSpec ScopeSpec Interp LogicString LogicApi LogicCases
  Meaning Clauses ClauseEnd ClauseOne ClauseCases Truth TruthEnd.
From Verif Require TruthProof.
Import ListNotations.
Open Scope string_scope.
Open Scope list_scope.
Open Scope nat_scope.

(** ** A structure

    Its objects are numbers, quotations are 7, everything else 0; "=" is identity, and the
    other predicates are as given. *)
Section Small.
Variables (names : string -> list (option nat) -> Prop) (numbers_are : nat -> list (option nat) -> Prop).
Definition small : structure := {|
  object := nat;
  world := unit;
  is_named := fun s l _ => if String.eqb s "=" then match l with [Some a; Some b] => a = b | _ => False end else names s l;
  is_object := fun d l _ => numbers_are d l;
  is_serial := fun _ _ _ _ => False;
  is_clause_of := fun _ _ _ => False;
  the_quote := fun _ _ => 7;
  the_clause := fun _ => 0;
  the_several := fun _ => 0;
  connected := fun _ P Q => P /\ Q;
  bound_by := fun q _ G w => match q with QEach => forall d, G d w | _ => exists d, G d w end;
  limited_by := fun q _ R G w => match q with QThe | QEach | QAll => forall d, R d w -> G d w | _ => exists d, R d w /\ G d w end
|}.
Lemma small_lawful : lawful small.
Proof.
  split; cbn.
  - reflexivity.
  - reflexivity.
  - reflexivity.
  - reflexivity.
  - intros c P P' Q Q' E E'. now rewrite E, E'.
  - intros q _ G G' E w. destruct q; split; try (intros [d H]; exists d; now apply E); intros H d; now apply E.
  - intros q _ R R' G G' E E' w. destruct q; split; try (intros (d & H & H'); exists d; split; [now apply E|now apply E']); intros H d H'; apply E', H, E, H'.
  - intros q _ c R G Q E w. destruct Q; subst q; (split; [intros H; apply H; now apply E|intros H d H'; apply E in H'; now subst]).
Qed.
End Small.

(** ** Texts *)

Definition text_predicate : string := "ji/ pa lu? hoa? poq/ ".
Definition literal_predicate : form :=
  Limits QThe 0 false (Says (Simple (Named "ji")) (Item (Var (Bound 0 false)) Nil))
    (Limits QThe 2 false (Says (Simple (Named "poq")) (Item (Var (Bound 2 false)) Nil))
      (Says (Abstract (Binds QLambda 1 false (Says (Simple (Unnamed (Bound 1 false))) (Item (Var (Bound 2 false)) Nil))))
        (Item (Var (Bound 0 false)) Nil))).
Definition text_other : string := "sa do/ bi mai? do/ lu/ jei? shu/ toa? ga do/ ".
Definition literal_other : form :=
  Limits QThe 4 false
    (Says (Abstract (Binds QLambda 5 false (Says (Simple (Named "=")) (Item (Var (Bound 5 false)) (Item (Quoted "tỏa" false) Nil)))))
      (Item (Var (Bound 4 false)) Nil))
    (Binds QSome 0 false
      (Limits QAll 1 false
        (Says (Abstract (Binds QLambda 2 false
            (Says (Abstract (Binds QLambda 3 false (Says (Simple (Named "=")) (Item (Var (Bound 3 false)) (Item (Var (Bound 4 false)) Nil)))))
              (Item (Var (Bound 0 false)) Nil))))
          (Item (Var (Bound 1 false)) Nil))
        (Says (Simple (Named "mai")) (Item (Var (Bound 0 false)) (Item (Var (Bound 1 false)) Nil))))).

Lemma predicate_differs : ~ equivalent (simplified literal_predicate) literal_predicate.
Proof.
  intros E. specialize (E (small (fun s l => if String.eqb s "ji" then l = [Some 0] else l = [Some 5]) (fun d _ => d = 0)) (small_lawful _ _) (fun _ => 3) tt).
  cbn in E. unfold at_value in E. cbn in E. destruct E as [_ E]. assert (3 = 0); [|discriminate].
  apply (E (fun d H d0 H0 => f_equal (fun l => match l with [Some x] => x | _ => 0 end) H) 0 eq_refl 5 eq_refl).
Qed.
Lemma other_differs : ~ equivalent (simplified literal_other) literal_other.
Proof.
  intros E. specialize (E (small (fun _ _ => False) (fun _ _ => False)) (small_lawful _ _) (fun _ => 3) tt).
  cbn in E. unfold at_value in E. cbn in E. destruct E as [_ E]. destruct E as [_ []]. intros d ->. exists 3. intros d. discriminate.
Qed.

Definition wrong_case (text output : string) : Prop :=
  exists d t G F bn name, parses text d /\ outcome ascii_unicode d (Ok (Some t)) /\ prints ascii_unicode (Some t) output /\
    (forall n, In n d -> sentence_item n -> covered ascii_unicode (o_letters diacritic) n = true) /\
    literally ascii_unicode (o_letters diacritic) d G /\
    shows (snd t) bn name (fst t) F /\
    (forall x y, is_binding (snd t) x = true -> is_binding (snd t) y = true -> bn x = bn y -> x = y) /\
    (forall x y, unbound (snd t) x = true -> unbound (snd t) y = true -> name x = name y -> x = y) /\
    conveys ascii_unicode (o_letters diacritic) d F /\ ~ equivalent F G.
Lemma wrong_intro text output G : (exists d, discourse_of text = Some d /\ literally ascii_unicode (o_letters diacritic) d G) ->
  covers_text text = true -> logic_string text = Ok output -> match logic_of text with Ok (Some _) => true | _ => false end = true ->
  ~ equivalent (simplified G) G -> wrong_case text output.
Proof.
  intros (d & D & L) C S O N. destruct (covered_text text output C S O) as (d' & [r h] & D' & P & Ou & Pr & Co). rewrite D in D'. injection D' as <-.
  destruct (clauses_mean _ _ _ _ Ou Co) as (F & bn & name & Cn & Sh & Nb & Nn). exists d, (r, h), G, F, bn, name.
  assert (Cn' : conveys ascii_unicode (o_letters diacritic) d (simplified G)) by (destruct L as (G0 & t0 & I & ->); exists G0, t0; auto).
  rewrite <- (conveys_one _ _ _ _ _ Cn Cn') in N. cbn [fst snd]. auto 12.
Qed.


Theorem predicate_wrong : wrong_case text_predicate "[ιJ : ji(J)] [ιP : poq(P)] P(P).".
Proof.
  apply (wrong_intro _ _ literal_predicate); [|vm_compute; reflexivity..|exact predicate_differs].
  assert (X : exists d F, discourse_of text_predicate = Some d /\ literally ascii_unicode (o_letters diacritic) d F /\ F = literal_predicate).
  { eexists _, _. split; [vm_compute; reflexivity|]. split; [eexists _, _; split; [derive|reflexivity]|vm_compute; reflexivity]. }
  destruct X as (d & F & E & L & ->). eauto.
Qed.
Theorem other_wrong : wrong_case text_other "∃X0 mai(‹tỏa›, X1)".
Proof.
  apply (wrong_intro _ _ literal_other); [|vm_compute; reflexivity..|exact other_differs].
  assert (X : exists d F, discourse_of text_other = Some d /\ literally ascii_unicode (o_letters diacritic) d F /\ F = literal_other).
  { eexists _, _. split; [vm_compute; reflexivity|]. split; [eexists _, _; split; [derive|reflexivity]|vm_compute; reflexivity]. }
  destruct X as (d & F & E & L & ->). eauto.
Qed.

Theorem right_case :
  exists d t G, parses ClauseCases.text d /\ outcome ascii_unicode d (Ok (Some t)) /\ prints ascii_unicode (Some t) ClauseCases.output /\
    (forall n, In n d -> sentence_item n -> covered ascii_unicode (o_letters diacritic) n = true) /\
    literally ascii_unicode (o_letters diacritic) d G /\ tame G = true /\ apart (loose G) (binders G) = true /\
    conveys ascii_unicode (o_letters diacritic) d meant /\ meant <> G.
Proof.
  assert (X : exists d F, discourse_of ClauseCases.text = Some d /\ literally ascii_unicode (o_letters diacritic) d F /\ simplified F = meant /\
    tame F = true /\ apart (loose F) (binders F) = true /\ length (binders F) <> length (binders meant)).
  { eexists _, _. split; [vm_compute; reflexivity|]. split; [eexists _, _; split; [derive|reflexivity]|]. split; [vm_compute; reflexivity|]. split; [vm_compute; reflexivity|]. split; [vm_compute; reflexivity|vm_compute; discriminate]. }
  destruct X as (d & G & E & L & Em & T & A & Ne).
  destruct (covered_text ClauseCases.text ClauseCases.output) as (d' & t & D' & P & O & Pr & Co); [vm_compute; reflexivity..|].
  rewrite E in D'. injection D' as <-. exists d, t, G. assert (Cn : conveys ascii_unicode (o_letters diacritic) d meant) by (rewrite <- Em; destruct L as (G0 & t0 & I & ->); exists G0, t0; auto).
  repeat (split; [assumption|]). intros K. apply Ne. now rewrite <- K.
Qed.
