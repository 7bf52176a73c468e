(** What returns for texts with clauses: Interpret and String, with the meaning of the text,
    the server, the bot and the command. *)

From Coq Require Import String Ascii NArith List Bool Arith Lia.
From Verif Require Import Base Utf8 PegSyntax Peg Tone Ast AstSorts AstCases Parser ParserSpec Logic LogicWords LogicSpec LogicString LogicFuel LogicApi LogicCases
  ScopeSpec ScopeCases App AppSpec AppApi AppTotal Main MainSpec MainApi Clauses ClauseOne ClauseEnd ClauseTotal Meaning Truth TruthEnd TruthProof.
From Verif Require LogicSafe ScopeTotal FuncWords FuncSupport ShownCases Shown ShownText.
Import ListNotations.
Open Scope string_scope.
Open Scope list_scope.
Open Scope nat_scope.

Definition clause_sentences (is_punct : N -> bool) (U : unicode) (x : string) : Prop :=
  forall lead d, fst (text_of is_punct (new_parser x)) = Ok (Got (Some (NText lead d))) ->
  forall n, In n d -> is_sentence n = true -> well_sorted n = true /\ supported U n = true /\ covered U (o_letters diacritic) n = true.
Lemma clause_settles is_punct U x : clause_sentences is_punct U x -> settles is_punct U x.
Proof. intros P lead d T. exact (covered_text_returns is_punct x _ lead d U (RNew is_punct x) T (P _ _ T)). Qed.

Theorem clause_answers is_punct U input : no_digits input -> clause_sentences is_punct U input ->
  (exists m, answers is_punct U input (Ok (RError m))) \/
  exists a lead d, answers is_punct U input (Ok (RFull a)) /\ a_ast a = NText lead d /\ (a_logic a = "fragment" <-> ~ has_sentence d).
Proof. intros D P. apply settled_answers; [apply no_digits_quiet, D|apply clause_settles, P]. Qed.
Theorem clause_replies is_punct U m : (forall x, asked U m x -> no_digits x /\ clause_sentences is_punct U x) ->
  exists o, replies is_punct U m (Ok o) /\ (o = None <-> forall x, ~ asked U m x).
Proof. intros H. apply settled_replies. intros x A. destruct (H x A) as [D P]. split; [apply no_digits_quiet, D|apply clause_settles, P]. Qed.
Theorem clause_main_ends is_punct U path input : no_digits input -> clause_sentences is_punct U input ->
  exists out n, runs is_punct U path input (out, Exit n).
Proof. intros D P. apply settled_ends; [apply no_digits_quiet, D|apply clause_settles, P]. Qed.

(** ** Parsed texts *)

Section Text.
Variables (is_punct : N -> bool) (text : string) (p : parser) (lead : option node) (d : list node) (U : unicode).
Notation ol := (o_letters diacritic).
Hypothesis R : reach is_punct text p.
Hypothesis E : fst (text_of is_punct p) = Ok (Got (Some (NText lead d))).

Theorem connected_covered_returns : FuncWords.letters_no_punct is_punct -> Shown.plain_unicode U ->
  (forall n, In n d -> is_sentence n = true -> well_sorted n = true /\ FuncWords.connected n = true /\ covered U ol n = true) ->
  exists t, outcome U d (Ok t) /\ exists f0, forall keys pretty f, f0 <= f -> exists s, print U keys pretty f t = Ok s.
Proof.
  intros N PU S. apply (covered_text_returns _ _ _ _ _ _ R E). intros n I J. rewrite (FuncSupport.text_supported _ _ _ _ _ _ N PU R E n I). auto.
Qed.

Hypothesis S : forall n, In n d -> is_sentence n = true -> well_sorted n = true /\ supported U n = true /\ covered U ol n = true.
Hypothesis Hs : has_sentence d.
Lemma text_tree_printed : exists r h s, outcome U d (Ok (Some (r, h))) /\ prints U (Some (r, h)) s.
Proof.
  destruct (covered_text_returns _ _ _ _ _ _ R E S) as (t & O & f0 & P). destruct t as [[r h]|]; [|apply outcome_nil in O; destruct (proj1 O eq_refl Hs)].
  destruct (P (fun ks => ks) false f0 (le_n _)) as (s & Es). exists r, h, s. split; [exact O|]. exists f0. intros f L.
  destruct (le_print U (fun ks => ks) false f0 f (Some (r, h)) L) as [X|X]; [rewrite Es in X; discriminate X|]. unfold string_. rewrite <- X. exact Es.
Qed.
Let Fo : forall n, In n d -> sentence_item n -> covered U ol n = true.
Proof. intros n I J. apply (S n I), ScopeTotal.item_sentence, J. Qed.
Theorem text_conveys :
  exists F, (forall F', conveys U ol d F' <-> F' = F) /\
    exists r h bn name s, outcome U d (Ok (Some (r, h))) /\ shows h bn name r F /\
      (forall x y, is_binding h x = true -> is_binding h y = true -> bn x = bn y -> x = y) /\
      (forall x y, unbound h x = true -> unbound h y = true -> name x = name y -> x = y) /\
      prints U (Some (r, h)) s.
Proof.
  destruct text_tree_printed as (r & h & s & O & P). destruct (clauses_mean _ _ _ _ O Fo) as (F & bn & name & C & Sh & Nb & Nn).
  exists F. split; [intros F'; split; [intros C'; eapply conveys_one; eassumption|intros ->; exact C]|]. exists r, h, bn, name, s. auto 6.
Qed.
Theorem text_truth :
  exists G, (forall G', literally U ol d G' <-> G' = G) /\
    (tame G = true -> apart (loose G) (binders G) = true ->
     exists F r h bn name s, outcome U d (Ok (Some (r, h))) /\ shows h bn name r F /\
      (forall x y, is_binding h x = true -> is_binding h y = true -> bn x = bn y -> x = y) /\
      (forall x y, unbound h x = true -> unbound h y = true -> name x = name y -> x = y) /\
      prints U (Some (r, h)) s /\ equivalent F G).
Proof.
  destruct text_tree_printed as (r & h & s & O & P). destruct (truth_kept _ _ _ _ O Fo) as (G & F & bn & name & L & Sh & Nb & Nn & _ & Eq).
  exists G. split; [intros G'; split; [intros L'; eapply literally_one; eassumption|intros ->; exact L]|]. intros T A. exists F, r, h, bn, name, s. auto 8.
Qed.
End Text.

(** ** A case *)

Definition clause_text : string :=
  "tu poq/ bi kuq? poq/ jeo~ ne\ suq/ fa^ poq/ giV hoa/ ra suq/ da mai? lu/ deq? hoa/ ji/ roi suq/ da mai? go ji/ mo/ hao? teo da po? suq/ ji/".
Definition clause_output : string :=
  "[ιP0 : poq(P0)] [ιS0 : suq(S0)] [ιP1 : poq(P1) ∧ (gi(P1) ∨ gi(S0))] [ιS1 : suq(S1)] [ιJ0 : ji(J0)] [ιS2 : suq(S2)] [ιD : deq(D, ⌊J0, S2⌉)] [ιJ1 : ji(J1)] [ιJ2 : ji(J2)] [ιS3 : suq(S3)] ([∀P2 : poq(P2)] jeo({ne({kuq(P0, {fa(P1)})}, S1)})) ∧ mai(D) ∧ mai(«hảo», J1) ∧ raq(J2, S3).".
Definition clause_ok (text : string) : bool :=
  match discourse_of text with
  | Some d => forallb (fun n => negb (is_sentence n) || covered ascii_unicode (o_letters diacritic) n) d
  | None => false
  end.
Lemma clause_case : exists lead d,
  fst (text_of ascii_punct (new_parser clause_text)) = Ok (Got (Some (NText lead d))) /\ has_sentence d /\
  forall n, In n d -> is_sentence n = true ->
    well_sorted n = true /\ supported ascii_unicode n = true /\ covered ascii_unicode (o_letters diacritic) n = true.
Proof.
  assert (T : LogicSafe.text_ok clause_text = true) by (vm_compute; reflexivity). destruct (LogicSafe.text_ok_case _ T) as (lead & d & P & H & S).
  exists lead, d. split; [exact P|]. split; [exact H|]. intros n I J. destruct (S n I J) as [A B]. split; [exact A|]. split; [exact B|].
  assert (Q : clause_ok clause_text = true) by (vm_compute; reflexivity). unfold clause_ok, discourse_of, parsed in Q. rewrite P in Q.
  rewrite forallb_forall in Q. apply Q in I. rewrite J in I. exact I.
Qed.
Lemma clause_message : exists lead d,
  fst (text_of ascii_punct (new_parser clause_text)) = Ok (Got (Some (NText lead d))) /\ has_sentence d /\
  clause_sentences ascii_punct ascii_unicode clause_text /\
  no_digits clause_text /\ asked ascii_unicode (Message None (".miu " ++ clause_text)) clause_text.
Proof.
  destruct clause_case as (lead & d & P & S & W). exists lead, d. split; [exact P|]. split; [exact S|]. split.
  - intros lead' d' T. rewrite P in T. injection T as <- <-. exact W.
  - split; [apply digits_free; vm_compute; reflexivity|]. eexists. split; [reflexivity|]. vm_compute. reflexivity.
Qed.
Lemma connected_clause_case : exists lead d, fst (text_of ascii_punct (new_parser clause_text)) = Ok (Got (Some (NText lead d))) /\ has_sentence d /\
  forall n, In n d -> is_sentence n = true -> well_sorted n = true /\ FuncWords.connected n = true /\ covered ascii_unicode (o_letters diacritic) n = true.
Proof.
  destruct clause_case as (lead & d & P & H & S). exists lead, d. split; [exact P|]. split; [exact H|]. intros n I J. destruct (S n I J) as (A & B & C). split; [exact A|]. split; [|exact C].
  rewrite <- B. symmetry. apply (FuncSupport.text_supported ascii_punct clause_text (new_parser clause_text) lead d); auto using FuncSupport.ascii_no_punct, ShownCases.ascii_plain; constructor.
Qed.
Lemma clause_logic : logic_string clause_text = Ok clause_output.
Proof. vm_compute. reflexivity. Qed.
