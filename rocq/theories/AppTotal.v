(** The server and the bot answer to first-order sentences. *)

From Coq Require Import String Ascii NArith List Bool Arith Lia.
From Verif Require Import Base Utf8 PegSyntax Peg Tone Ast AstSorts Parser ParserSpec Logic LogicWords LogicSpec Interp Simplify LogicString LogicFuel LogicApi LogicCases LogicSafe
  ScopeSpec ScopeTotal ScopeCases App AppSpec AppApi.
Import ListNotations.
Open Scope string_scope.
Open Scope list_scope.
Open Scope nat_scope.

Section Total.
Variables (is_punct : N -> bool) (U : unicode).

(** The sentences of the text are of the kind that C30 is proved for. *)
Definition plain_sentences (x : string) : Prop := forall lead d, fst (text_of is_punct (new_parser x)) = Ok (Got (Some (NText lead d))) ->
  forall n, In n d -> is_sentence n = true -> well_sorted n = true /\ supported U n = true /\ first_order U (o_letters diacritic) n = true.

(** Interpret returns a tree for the text, and String and PrettyString of the tree return. *)
Definition settles (x : string) : Prop := forall lead d, fst (text_of is_punct (new_parser x)) = Ok (Got (Some (NText lead d))) ->
  exists t, outcome U d (Ok t) /\ exists f0, forall keys pretty f, f0 <= f -> exists s, print U keys pretty f t = Ok s.
Lemma plain_settles x : plain_sentences x -> settles x.
Proof. intros P lead d T. exact (text_returns is_punct x _ lead d U (RNew is_punct x) T (P _ _ T)). Qed.

Lemma settled_form x lead d : settles x -> fst (text_of is_punct (new_parser x)) = Ok (Got (Some (NText lead d))) ->
  (outcome U d (Ok None) /\ ~ has_sentence d) \/
  (has_sentence d /\ exists t s, outcome U d (Ok (Some t)) /\ finally (fun fuel => pretty_string U fuel (Some t)) (Ok s)).
Proof.
  intros P T. destruct (P _ _ T) as ([t|] & O & f0 & F).
  - right. destruct (F (fun ks => ks) true f0 (le_n _)) as (s & E). split.
    + assert (It := parsed_items _ _ _ _ _ (RNew is_punct x) T). destruct (existsb is_sentence d) eqn:S.
      * apply existsb_exists in S. destruct S as (n & I & S). exists n. split; [exact I|]. destruct n as [ | |je st da| | | | | | | | | | | | | | | | | | | | | |k f t' w l r| | ]; try discriminate S.
        -- left. eauto.
        -- destruct k; try discriminate S. right. eauto 6.
      * exfalso. assert (N : ~ has_sentence d).
        { intros (n & I & J). apply item_sentence in J. assert (existsb is_sentence d = true) by (apply existsb_exists; eauto). congruence. }
        apply (outcome_nil U d (Some t) O) in N. discriminate N.
    + exists t, s. split; [exact O|]. apply (finally_intro (fun fuel => pretty_string U fuel (Some t)) f0 (Ok s)); [|exact E|discriminate].
      intros a b L. apply le_print, L.
  - left. split; [exact O|]. apply (outcome_nil U d None O). reflexivity.
Qed.

Lemma no_digits_quiet x : no_digits x -> fst (text_of is_punct (new_parser x)) <> Panic PRuntime.
Proof. intros D E. exact (proj2 (proj1 (SortApi.panics_only_digits is_punct x _ (RNew is_punct x)) _ E) D). Qed.

Theorem settled_answers input : fst (text_of is_punct (new_parser input)) <> Panic PRuntime -> settles input ->
  (exists m, answers is_punct U input (Ok (RError m))) \/
  exists a lead d, answers is_punct U input (Ok (RFull a)) /\ a_ast a = NText lead d /\ (a_logic a = "fragment" <-> ~ has_sentence d).
Proof.
  intros D P. destruct (post_is is_punct U input) as [e T Q|C T Q|t lead d T X Q].
  - left. exists (error_string e). apply post_error. eauto.
  - destruct (D T).
  - right.
    assert (L : exists l, logic_shown U d (Ok l) /\ (l = "fragment" -> ~ has_sentence d)).
    { destruct (settled_form _ _ _ P X) as [(O & N)|(S & t' & s & O & F)].
      - exists "fragment". split; [apply LFragment, N|auto].
      - exists s. split; [exact (LForm _ _ _ _ O F)|]. intros ->. destruct F as [_ [n F]]. specialize (F n (le_n n)). destruct (AppFacts.pretty_not_fragment U n t' _ F eq_refl). }
    destruct L as (l & L & N). eexists. exists lead, d.
    assert (A : answers is_punct U input (Ok (RFull (Analysis (Braces.braces_string (NText lead d)) (NText lead d)
          (String.concat "" (map w_t (VisitSpec.words (NText lead d)))) (pretty_node "" t) l)))) by (apply post_full; exists t, lead, d, l; auto).
    split; [exact A|]. split; [reflexivity|]. cbn [a_logic]. split; [exact N|]. intros K.
    destruct (post_fragment _ _ _ _ A) as (lead' & d' & E & F). injection E as <- <-. apply F. left. exact K.
Qed.

Theorem settled_replies m : (forall x, asked U m x -> fst (text_of is_punct (new_parser x)) <> Panic PRuntime /\ settles x) ->
  exists o, replies is_punct U m (Ok o) /\ (o = None <-> forall x, ~ asked U m x).
Proof.
  intros H. destruct (asked_or_not U m) as [[P N]|(P & A & N)].
  - exists None. split; [|tauto]. apply bot_silent. congruence.
  - assert (S : exists s, replies is_punct U m (Ok (Some s))).
    { set (x := trim_space U (trim_space U (sdrop 4 (m_text (fix_bridge m))))) in *. destruct (H x A) as [D Pl].
      destruct (bot_is is_punct U x) as [e T Q|C T Q|lead d T I Q].
      - eexists. apply bot_says. exists x. split; [exact A|]. left. eauto.
      - destruct (D T).
      - destruct (settled_form _ _ _ Pl T) as [(O & K)|(S & t' & s & O & F)]; eexists; apply bot_says; exists x; (split; [exact A|]); right; exists lead, d.
        + exists "fragment". split; [exact T|]. split; [left; auto|reflexivity].
        + exists s. split; [exact T|]. split; [right; eauto|reflexivity]. }
    destruct S as (s & S). exists (Some s). split; [exact S|]. split; [discriminate|]. intros K. destruct (K _ A).
Qed.

Theorem post_answers input : no_digits input -> plain_sentences input ->
  (exists m, answers is_punct U input (Ok (RError m))) \/
  exists a lead d, answers is_punct U input (Ok (RFull a)) /\ a_ast a = NText lead d /\ (a_logic a = "fragment" <-> ~ has_sentence d).
Proof. intros D P. apply settled_answers; [apply no_digits_quiet, D|apply plain_settles, P]. Qed.
Theorem bot_answers m : (forall x, asked U m x -> no_digits x /\ plain_sentences x) ->
  exists o, replies is_punct U m (Ok o) /\ (o = None <-> forall x, ~ asked U m x).
Proof. intros H. apply settled_replies. intros x A. destruct (H x A) as [D P]. split; [apply no_digits_quiet, D|apply plain_settles, P]. Qed.
End Total.

Lemma total_message : exists lead d,
  fst (text_of ascii_punct (new_parser total_text)) = Ok (Got (Some (NText lead d))) /\ has_sentence d /\
  plain_sentences ascii_punct ascii_unicode total_text /\
  no_digits total_text /\ asked ascii_unicode (Message None (".miu " ++ total_text)) total_text.
Proof.
  destruct total_case as (lead & d & P & S & W). exists lead, d. split; [exact P|]. split; [exact S|]. split.
  - intros lead' d' T. rewrite P in T. injection T as <- <-. exact W.
  - split; [apply digits_free; vm_compute; reflexivity|]. eexists. split; [reflexivity|]. vm_compute. reflexivity.
Qed.
