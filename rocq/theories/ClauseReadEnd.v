(** What is shown of covered sentences determines what they mean. *)

From Coq Require Import Ascii String NArith List Bool Arith Lia.
From Verif Require Import Base Utf8 PegSyntax Tone Ast AstSorts AstCases Parser Logic LogicWords LogicSpec Interp Simplify LogicString LogicFuel LogicApi LogicCases SeqFacts ScopeSpec Meaning MeaningApi Clauses ClauseHeap
  ClauseOne ClauseEnd ClauseCases ClauseNotation ClauseShown ClauseWritten ClauseSketch ClauseRead Orderly OrderlyEnd.
From Verif Require Shown ShownRead ShownApi NameText MeaningFacts.
Import ListNotations.
Open Scope list_scope.
Open Scope nat_scope.
Open Scope string_scope.

(** ** The predicates of a formula *)

Fixpoint form_names (F : form) : list string :=
  match F with
  | Says p l => (prop_names p ++ row_names l)%list
  | Joined _ F G | Limits _ _ _ F G => (form_names F ++ form_names G)%list
  | Binds _ _ _ G => form_names G
  end
with prop_names (p : prop) : list string :=
  match p with Simple p => Shown.property_names p | Abstract F => form_names F end
with term_names (a : term) : list string :=
  match a with Var _ | Quoted _ _ => [] | That F => form_names F | Several l => row_names l end
with row_names (l : row) : list string :=
  match l with Nil => [] | Gap l => row_names l | Item a l => (term_names a ++ row_names l)%list end.

Section Names.
Variable h : heap.
Definition cells (l : list string) : Prop := forall s, In s l -> exists r, nth_error h r = Some (CPred s).
Lemma cells_app l m : cells l -> cells m -> cells (l ++ m)%list.
Proof. intros A B s I. apply in_app_or in I as [I|I]; auto. Qed.
Lemma rprop_names r p : MeaningFacts.rprop h r p -> cells (Shown.property_names p).
Proof. induction 1; cbn [Shown.property_names]; [intros x [<-|[]]; eauto|intros x []|now apply cells_app]. Qed.
Lemma at_names :
  (forall X r F, at_f h X r F -> cells (form_names F)) /\ (forall X r p, at_p h X r p -> cells (prop_names p)) /\
  (forall X r a, at_t h X r a -> cells (term_names a)) /\ (forall X xs l, at_r h X xs l -> cells (row_names l)).
Proof.
  apply at_ind; cbn [form_names prop_names term_names row_names]; intros; auto using cells_app; try (intros ? []).
  eapply rprop_names; eassumption.
Qed.
End Names.

Section Good.
Variable name : nat -> string.
Hypothesis V : forall x, Shown.var_name (name x) = true.
Lemma join_good c B : good B -> forall A, good A -> good (ClauseSketch.join c A B).
Proof.
  intros Gb. fix IH 1. intros A Ga. destruct A as [p l|c' A1 A2|q x G|q x R G].
  - cbn [ClauseSketch.join good]. auto.
  - cbn [ClauseSketch.join]. destruct (Shown.conn_eqb c' c) eqn:E.
    + apply ShownRead.conn_eqb_eq in E. subst c'. destruct Ga as (N & G1 & G2). cbn [good]. split; [exact N|]. split; [exact G1|]. apply IH, G2.
    + cbn [good]. split; [exact E|]. split; [exact Ga|exact Gb].
  - cbn [ClauseSketch.join good]. destruct Ga. auto.
  - cbn [ClauseSketch.join good]. destruct Ga as (? & ? & ?). auto 6.
Qed.
Lemma parts_good p : (forall s, In s (Shown.property_names p) -> ShownRead.pred_name s = true) -> forallb ShownRead.good_part (Shown.parts name p) = true.
Proof.
  induction p as [s|t|a IHa b IHb]; cbn; intros H.
  - rewrite H; auto.
  - destruct t as [x f|x]; cbn; now rewrite V.
  - rewrite forallb_app, IHa, IHb; [reflexivity|..]; intros s I; apply H, in_or_app; auto.
Qed.
Definition all_named (l : list string) : Prop := forall s, In s l -> ShownRead.pred_name s = true.
Lemma named_app l m : all_named (l ++ m)%list -> all_named l /\ all_named m.
Proof. intros A. split; intros s I; apply A, in_or_app; auto. Qed.
Lemma sketch_good :
  (forall F, all_named (form_names F) -> plain_quotes F = true -> good (sketch_of name F)) /\
  (forall p, all_named (prop_names p) -> plain_quotes_p p = true -> good_h (heading_of name p)) /\
  (forall a, all_named (term_names a) -> plain_quotes_t a = true -> good_e (entry_of name a)) /\
  (forall l, all_named (row_names l) -> plain_quotes_r l = true -> good_l (entries_of name l)).
Proof.
  apply forms_ind.
  - intros p Hp l Hl N Q. apply named_app in N as [N1 N2]. cbn [plain_quotes] in Q. apply andb_prop in Q as [Q1 Q2]. split; auto.
  - intros c F HF G HG N Q. apply named_app in N as [N1 N2]. cbn [plain_quotes] in Q. apply andb_prop in Q as [Q1 Q2]. apply join_good; auto.
  - intros q x f G HG N Q. split; [apply V|]. auto.
  - intros q x f R HR G HG N Q. apply named_app in N as [N1 N2]. cbn [plain_quotes] in Q. apply andb_prop in Q as [Q1 Q2]. split; [apply V|]. auto.
  - intros p N _. split; [now apply parts_good|apply ShownRead.parts_nonempty].
  - intros F HF N Q. exact (HF N Q).
  - intros v _ _. destruct v; apply V.
  - intros s f _ Q. exact Q.
  - intros F HF N Q. exact (HF N Q).
  - intros l Hl N Q. exact (Hl N Q).
  - intros _ _. exact I.
  - intros l Hl N Q. exact (Hl N Q).
  - intros a Ha l Hl N Q. apply named_app in N as [N1 N2]. cbn [plain_quotes_r] in Q. apply andb_prop in Q as [Q1 Q2]. split; auto.
Qed.
End Good.

(** ** Texts *)

Lemma conveyed_names is_punct text p lead d U t F : Parser.reach is_punct text p ->
  fst (text_of is_punct p) = Ok (Got (Some (NText lead d))) -> Shown.plain_unicode U -> outcome U d (Ok (Some t)) ->
  (forall n, In n d -> sentence_item n -> covered U (o_letters diacritic) n = true) -> conveys U (o_letters diacritic) d F -> all_named (form_names F).
Proof.
  intros R E PU O Co M s I. destruct t as [r h]. destruct (clauses_tree _ _ _ _ O Co) as (F' & h1 & k & X & f & l & M' & A & Nu & Vi & Rn).
  assert (F' = F) by (eapply conveys_one; eassumption). subst F'. assert (B : bare h = bare h1) by (eapply renumber_bare, Rn).
  destruct (proj1 (at_names h1) _ _ _ A s I) as (i & Ei). destruct (same_cell h h1 B _ _ Ei) as (c & Ec & Xc). destruct c; try discriminate. cbn in Xc. injection Xc as ->.
  apply ShownApi.word_pred_name. eapply (NameText.text_named _ _ _ _ _ _ _ _ R E PU O). cbn [snd]. eapply nth_error_In, Ec.
Qed.

Theorem clauses_read ip1 ip2 text1 text2 p1 p2 l1 l2 d1 d2 U t1 t2 F1 F2 s :
  Parser.reach ip1 text1 p1 -> fst (text_of ip1 p1) = Ok (Got (Some (NText l1 d1))) ->
  Parser.reach ip2 text2 p2 -> fst (text_of ip2 p2) = Ok (Got (Some (NText l2 d2))) -> Shown.plain_unicode U ->
  outcome U d1 (Ok (Some t1)) -> outcome U d2 (Ok (Some t2)) ->
  (forall n, In n d1 -> sentence_item n -> covered U (o_letters diacritic) n = true) ->
  (forall n, In n d2 -> sentence_item n -> covered U (o_letters diacritic) n = true) ->
  conveys U (o_letters diacritic) d1 F1 -> conveys U (o_letters diacritic) d2 F2 -> stray F1 = [] -> stray F2 = [] ->
  plain_quotes F1 = true -> plain_quotes F2 = true ->
  prints U (Some t1) s -> prints U (Some t2) s ->
  exists name1 name2, told_apart name1 F1 /\ told_apart name2 F2 /\ sketch_of name1 F1 = sketch_of name2 F2.
Proof.
  intros R1 T1 R2 T2 PU O1 O2 C1 C2 M1 M2 S1 S2 Q1 Q2 P1 P2.
  destruct (text_written _ _ _ _ _ _ R1 T1 PU _ _ _ O1 C1 M1 S1 P1) as (n1 & A1 & V1 & E1). destruct (text_written _ _ _ _ _ _ R2 T2 PU _ _ _ O2 C2 M2 S2 P2) as (n2 & A2 & V2 & E2).
  exists n1, n2. split; [exact A1|]. split; [exact A2|].
  assert (Ex : forall name F, s = form_text name F \/ s = (form_text name F ++ ".")%string -> exists e, ended e /\ s = (sketch_text (sketch_of name F) ++ e)%string).
  { intros name F [E|E]; rewrite (proj1 (sketch_text_ok name)); [exists ""; split; [exact I|rewrite ShownRead.sapp_nil; exact E]|exists "."; split; [left; reflexivity|exact E]]. }
  destruct (Ex _ _ E1) as (e1 & St1 & X1). destruct (Ex _ _ E2) as (e2 & St2 & X2).
  refine (proj1 (sketches_apart _ _ e1 e2 _ _ St1 St2 _)); [| |congruence].
  - apply (proj1 (sketch_good n1 V1)); [|exact Q1]. eapply conveyed_names; [exact R1|exact T1|exact PU|exact O1|exact C1|exact M1].
  - apply (proj1 (sketch_good n2 V2)); [|exact Q2]. eapply conveyed_names; [exact R2|exact T2|exact PU|exact O2|exact C2|exact M2].
Qed.

(** ** Quotation marks inside a quotation *)

(** unicode.IsPunct on ASCII and on guillemets. *)
Definition guillemets (r : N) : bool := ascii_punct r || N.eqb r 171 || N.eqb r 187.
Definition two_quotes : string := "mai? mo/ hao? teo mo/ ji/ teo".
Definition one_quote : string := "mai? mo/ hao?», «ji/ teo".
Definition discourse_by (is_punct : N -> bool) (text : string) : option (list node) :=
  match fst (text_of is_punct (new_parser text)) with Ok (Got (Some (NText _ d))) => Some d | _ => None end.
Definition say2 : form := Says (Simple (Named "mai")) (Item (Quoted "hảo" true) (Item (Quoted "jí" true) Nil)).
Definition say1 : form := Says (Simple (Named "mai")) (Item (Quoted "hảo», «jí" true) Nil).

Lemma by_case is_punct text s F :
  (match discourse_by is_punct text with
   | Some d => forallb (covered ascii_unicode (o_letters diacritic)) d && match interpret ascii_unicode (o_letters diacritic) 100 d with Ok (Some t) => match string_ ascii_unicode 100 (Some t) with Ok s' => String.eqb s' s | _ => false end | _ => false end
   | None => false end = true) ->
  (exists d F', discourse_by is_punct text = Some d /\ conveys ascii_unicode (o_letters diacritic) d F' /\ F' = F) ->
  exists lead d t, fst (text_of is_punct (new_parser text)) = Ok (Got (Some (NText lead d))) /\ outcome ascii_unicode d (Ok (Some t)) /\
    (forall n, In n d -> sentence_item n -> covered ascii_unicode (o_letters diacritic) n = true) /\
    conveys ascii_unicode (o_letters diacritic) d F /\ prints ascii_unicode (Some t) s.
Proof.
  intros H (d & F' & D & M & ->). rewrite D in H. apply andb_prop in H as [Co H]. unfold discourse_by in D. destruct (fst (text_of is_punct (new_parser text))) as [[[n|]|]| |] eqn:P; try discriminate.
  destruct n as [lead d'| | | | | | | | | | | | | | | | | | | | | | | | | |]; try discriminate. injection D as ->.
  destruct (interpret ascii_unicode (o_letters diacritic) 100 d) as [[t|]| |] eqn:I; try discriminate. destruct (string_ ascii_unicode 100 (Some t)) as [s'| |] eqn:St; try discriminate.
  apply String.eqb_eq in H. subst s'. exists lead, d, t. split; [reflexivity|]. split; [eapply outcome_intro; [exact I|discriminate]|]. rewrite forallb_forall in Co. split; [auto|]. split; [exact M|eapply prints_intro, St].
Qed.
Lemma quotes_confused :
  exists ip text1 text2 l1 l2 d1 d2 t1 t2 F1 F2 s,
    fst (text_of ip (new_parser text1)) = Ok (Got (Some (NText l1 d1))) /\ outcome ascii_unicode d1 (Ok (Some t1)) /\
    (forall n, In n d1 -> sentence_item n -> covered ascii_unicode (o_letters diacritic) n = true) /\
    conveys ascii_unicode (o_letters diacritic) d1 F1 /\ prints ascii_unicode (Some t1) s /\
    fst (text_of ip (new_parser text2)) = Ok (Got (Some (NText l2 d2))) /\ outcome ascii_unicode d2 (Ok (Some t2)) /\
    (forall n, In n d2 -> sentence_item n -> covered ascii_unicode (o_letters diacritic) n = true) /\
    conveys ascii_unicode (o_letters diacritic) d2 F2 /\ prints ascii_unicode (Some t2) s /\
    stray F1 = [] /\ stray F2 = [] /\ forall name1 name2, sketch_of name1 F1 <> sketch_of name2 F2.
Proof.
  destruct (by_case guillemets two_quotes "mai(«hảo», «jí»)." say2) as (l1 & d1 & t1 & H1); [vm_compute; reflexivity|eexists _, _; split; [vm_compute; reflexivity|]; split; [eexists _, _; split; [derive|reflexivity]|vm_compute; reflexivity]|].
  destruct (by_case guillemets one_quote "mai(«hảo», «jí»)." say1) as (l2 & d2 & t2 & H2); [vm_compute; reflexivity|eexists _, _; split; [vm_compute; reflexivity|]; split; [eexists _, _; split; [derive|reflexivity]|vm_compute; reflexivity]|].
  exists guillemets, two_quotes, one_quote, l1, l2, d1, d2, t1, t2, say2, say1, "mai(«hảo», «jí»).". destruct H1 as (A1 & A2 & A3 & A4 & A5). destruct H2 as (B1 & B2 & B3 & B4 & B5).
  repeat match goal with |- _ /\ _ => split end; try assumption; try reflexivity. discriminate.
Qed.

(** ** Texts shown alike *)

Definition focused_text : string := "tu do/ ne\ do/ bi kuq? ku ji/ fa^ do/".
Lemma focused_case : exists F, F <> meant /\
  exists lead d t, fst (text_of ascii_punct (new_parser focused_text)) = Ok (Got (Some (NText lead d))) /\ outcome ascii_unicode d (Ok (Some t)) /\
    (forall n, In n d -> sentence_item n -> covered ascii_unicode (o_letters diacritic) n = true) /\
    conveys ascii_unicode (o_letters diacritic) d F /\ prints ascii_unicode (Some t) output /\ stray F = [] /\ plain_quotes F = true.
Proof.
  assert (X : exists d F, discourse_by ascii_punct focused_text = Some d /\ conveys ascii_unicode (o_letters diacritic) d F /\ (F <> meant /\ stray F = [] /\ plain_quotes F = true)).
  { eexists _, _. split; [vm_compute; reflexivity|]. split; [eexists _, _; split; [derive|reflexivity]|]. vm_compute. split; [discriminate|split; reflexivity]. }
  destruct X as (d & F & D & M & Ne & St & Q). exists F. split; [exact Ne|].
  destruct (by_case ascii_punct focused_text output F) as (l & d' & t & H1 & H2 & H3 & H4 & H5); [vm_compute; reflexivity|eauto|]. exists l, d', t. auto 10.
Qed.
Lemma alike_case :
  exists d1 d2 t1 t2 F1 F2, parses text d1 /\ parses focused_text d2 /\
    outcome ascii_unicode d1 (Ok (Some t1)) /\ outcome ascii_unicode d2 (Ok (Some t2)) /\
    (forall n, In n d1 -> sentence_item n -> covered ascii_unicode (o_letters diacritic) n = true) /\
    (forall n, In n d2 -> sentence_item n -> covered ascii_unicode (o_letters diacritic) n = true) /\
    conveys ascii_unicode (o_letters diacritic) d1 F1 /\ conveys ascii_unicode (o_letters diacritic) d2 F2 /\
    stray F1 = [] /\ stray F2 = [] /\ plain_quotes F1 = true /\ plain_quotes F2 = true /\
    prints ascii_unicode (Some t1) output /\ prints ascii_unicode (Some t2) output /\ F1 <> F2.
Proof.
  destruct clauses_case as (d1 & t1 & P1 & O1 & S1 & C1 & M1). destruct focused_case as (F2 & Ne & l2 & d2 & t2 & P2 & O2 & C2 & M2 & S2 & St & Q).
  exists d1, d2, t1, t2, meant, F2. split; [exact P1|]. split; [exists l2; exact P2|]. repeat match goal with |- _ /\ _ => split end; try assumption; try reflexivity. congruence.
Qed.

(** ** Well-ordered texts *)

Theorem orderly_read ip1 ip2 text1 text2 p1 p2 l1 l2 d1 d2 U t1 t2 F1 F2 s :
  Parser.reach ip1 text1 p1 -> fst (text_of ip1 p1) = Ok (Got (Some (NText l1 d1))) ->
  Parser.reach ip2 text2 p2 -> fst (text_of ip2 p2) = Ok (Got (Some (NText l2 d2))) -> Shown.plain_unicode U ->
  outcome U d1 (Ok (Some t1)) -> outcome U d2 (Ok (Some t2)) ->
  (forall n, In n d1 -> sentence_item n -> well_ordered U (o_letters diacritic) n = true) ->
  (forall n, In n d2 -> sentence_item n -> well_ordered U (o_letters diacritic) n = true) ->
  conveys U (o_letters diacritic) d1 F1 -> conveys U (o_letters diacritic) d2 F2 ->
  plain_quotes F1 = true -> plain_quotes F2 = true ->
  prints U (Some t1) s -> prints U (Some t2) s ->
  exists name1 name2, told_apart name1 F1 /\ told_apart name2 F2 /\ sketch_of name1 F1 = sketch_of name2 F2.
Proof.
  intros R1 T1 R2 T2 PU O1 O2 W1 W2 M1 M2 Q1 Q2 P1 P2.
  eapply (clauses_read ip1 ip2 text1 text2 p1 p2 l1 l2 d1 d2 U t1 t2 F1 F2 s); eauto using all_covered, orderly_stray.
Qed.
Lemma alike_orderly : orders_text text = true /\ orders_text focused_text = true.
Proof. vm_compute. auto. Qed.
