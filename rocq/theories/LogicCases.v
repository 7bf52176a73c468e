(** The interpretation of concrete texts. *)

From Coq Require Import String Ascii NArith List Bool Arith Lia.
From Verif Require Import Base Utf8 PegSyntax Tone Ast Parser ParserSpec AstCases Logic LogicWords LogicSpec Interp Simplify LogicString LogicFuel TermFacts LogicApi.
Import ListNotations.
Open Scope string_scope.
Open Scope list_scope.
Open Scope nat_scope.

(** The discourse of a parsed text. *)
Definition discourse_of (text : string) : option (list node) :=
  match parsed text with Some (NText _ d) => Some d | _ => None end.

(** The result of Interpret for a text, and of String for that; only used for concrete
    texts. *)
Definition logic_of (text : string) : res (option (ref * heap)) :=
  match discourse_of text with
  | Some d => interpret ascii_unicode (o_letters diacritic) 100 d
  | None => NoFuel
  end.
Definition tree_of (text : string) : ref * heap := match logic_of text with Ok (Some t) => t | _ => (0, []) end.
Definition logic_string (text : string) : res string := bind (logic_of text) (string_ ascii_unicode 100).

(** The text parses as [d]. *)
Definition parses (text : string) (d : list node) : Prop :=
  exists lead, fst (text_of ascii_punct (new_parser text)) = Ok (Got (Some (NText lead d))).

Lemma logic_of_ok text r : logic_of text = r -> r <> NoFuel -> exists d, parses text d /\ outcome ascii_unicode d r.
Proof.
  intros E N. unfold logic_of, discourse_of in E. destruct (parsed text) as [n|] eqn:P; [|congruence].
  destruct n as [lead d| | | | | | | | | | | | | | | | | | | | | | | | | |]; try congruence. exists d. split.
  - exists lead. apply parsed_ok, P.
  - eapply outcome_intro; eassumption.
Qed.
Lemma logic_string_ok text s : logic_string text = Ok s ->
  exists d t, parses text d /\ outcome ascii_unicode d (Ok t) /\ prints ascii_unicode t s.
Proof.
  unfold logic_string. intros E. destruct (logic_of text) as [t| |] eqn:L; cbn [bind] in E; try discriminate.
  destruct (logic_of_ok _ _ L) as (d & P & O); [discriminate|]. exists d, t. split; [exact P|]. split; [exact O|].
  eapply prints_intro, E.
Qed.

(** ** Panics *)

Lemma bad_connector_panics :
  exists text d, parses text d /\ outcome ascii_unicode d (Panic (PString "impossible: ro")).
Proof. exists "gi? ro hui?". apply logic_of_ok; [vm_compute; reflexivity|discriminate]. Qed.
Lemma bad_relative_panics :
  exists text d, parses text d /\ outcome ascii_unicode d (Panic PRuntime).
Proof. exists "hao? ji/ giV na ru de? ". apply logic_of_ok; [vm_compute; reflexivity|discriminate]. Qed.

(** ** Combinations *)

(** The predications of a tree with the predicate named [name]. *)
Definition named_predications (h : heap) (l : list ref) (name : string) : list ref :=
  filter (fun r => match nth_error h r with
                   | Some (CPredication p _) =>
                       match nth_error h p with Some (CPred s) => String.eqb s name | _ => false end
                   | _ => false
                   end) l.

Definition visit_of (t : ref * heap) : list ref := match visited (snd t) 100 (fst t) with Ok l => l | _ => [] end.

(** A discourse of one sentence that is a predication with the terms [ts]. *)
Definition simple_sentence (p : node) (ts : list node) (d : list node) : Prop :=
  exists je na da, d = [NSentence je (NPredication p (Some ts) na) da].
Definition ru_argument (a b n : node) : Prop :=
  exists f t w, n = NCoP CArgument f t w a b /\ has_text ascii_unicode w "ru" = true.

Lemma missing_combination :
  exists text p x a b y c e d t l,
    parses text d /\ simple_sentence p [x; y] d /\ ru_argument a b x /\ ru_argument c e y /\
    outcome ascii_unicode d (Ok (Some t)) /\ nodes t l /\
    length (named_predications (snd t) l "mai") = 3 /\
    prints ascii_unicode (Some t) "[ιJ : ji(J)] [ιP : poq(P)] [ιD : deq(D)] [ιS : suq(S)] mai(J, P) ∧ mai(J, D) ∧ mai(S, D).".
Proof.
  exists "mai? ji/ ru suq/ poq/ ru deq/".
  destruct (parsed "mai? ji/ ru suq/ poq/ ru deq/") as [n|] eqn:P; [|vm_compute in P; discriminate].
  assert (PP := parsed_ok _ _ P). vm_compute in P. injection P as <-.
  do 7 eexists.
  match type of PP with _ = Ok (Got (Some (NText ?lead ?dd))) => exists dd; set (d := dd) in *; assert (Pd : parses "mai? ji/ ru suq/ poq/ ru deq/" d) by (exists lead; exact PP) end.
  clear PP. assert (L : exists t, interpret ascii_unicode (o_letters diacritic) 100 d = Ok (Some t) /\
    length (named_predications (snd t) (visit_of t) "mai") = 3 /\ visited (snd t) 100 (fst t) = Ok (visit_of t) /\
    string_ ascii_unicode 100 (Some t) = Ok "[ιJ : ji(J)] [ιP : poq(P)] [ιD : deq(D)] [ιS : suq(S)] mai(J, P) ∧ mai(J, D) ∧ mai(S, D).").
  { eexists. split; [vm_compute; reflexivity|]. split; [vm_compute; reflexivity|]. split; vm_compute; reflexivity. }
  destruct L as (t & L1 & L2 & L3 & L4). exists t, (visit_of t).
  split; [exact Pd|]. split; [do 3 eexists; reflexivity|]. split; [do 3 eexists; split; [reflexivity|vm_compute; reflexivity]|].
  split; [do 3 eexists; split; [reflexivity|vm_compute; reflexivity]|].
  split; [eapply outcome_intro; [exact L1|discriminate]|]. split; [exists 100; exact L3|]. split; [exact L2|]. eapply prints_intro, L4.
Qed.

(** ** Connected arguments of prepositions *)
Lemma operand_missing :
  exists text d t l, parses text d /\ outcome ascii_unicode d (Ok (Some t)) /\ nodes t l /\
    text = "ne\ poq/ ru deq/ bi fa? ji/" /\
    (forall r, In r l -> nth_error (snd t) r <> Some (CPred "deq")) /\
    length (named_predications (snd t) l "ne") = 2.
Proof.
  exists "ne\ poq/ ru deq/ bi fa? ji/".
  destruct (logic_of "ne\ poq/ ru deq/ bi fa? ji/") as [o| |] eqn:E; try (vm_compute in E; discriminate).
  destruct (logic_of_ok _ _ E) as (d & P & O); [discriminate|]. exists d. vm_compute in E. injection E as <-.
  match type of O with outcome _ _ (Ok (Some ?t)) => exists t, (visit_of t) end.
  split; [exact P|]. split; [exact O|]. split; [exists 100; vm_compute; reflexivity|]. split; [reflexivity|]. split; [|vm_compute; reflexivity].
  intros r I. vm_compute in I. repeat (destruct I as [<-|I]; [vm_compute; discriminate|]). contradiction.
Qed.

(** ** Variables out of scope *)
Lemma unscoped fuel text t v : logic_of text = Ok (Some t) -> loose (snd t) fuel [] (fst t) = Some v ->
  exists d, parses text d /\ outcome ascii_unicode d (Ok (Some t)) /\ ~ scoped t.
Proof.
  intros E L. destruct (logic_of_ok _ _ E) as (d & P & O); [discriminate|]. exists d. split; [exact P|]. split; [exact O|].
  destruct t as [r h]. exact (loose_not_scoped _ _ _ _ L).
Qed.
Lemma unscoped_roi :
  exists text d t, parses text d /\ outcome ascii_unicode d (Ok (Some t)) /\ ~ scoped t.
Proof.
  assert (E : logic_of "fa? ji/ roi suq/ ne\ poq/" = Ok (Some (tree_of "fa? ji/ roi suq/ ne\ poq/"))) by (vm_compute; reflexivity).
  assert (L : match loose (snd (tree_of "fa? ji/ roi suq/ ne\ poq/")) 100 [] (fst (tree_of "fa? ji/ roi suq/ ne\ poq/")) with Some _ => true | None => false end = true) by (vm_compute; reflexivity).
  destruct (loose (snd (tree_of "fa? ji/ roi suq/ ne\ poq/")) 100 [] (fst (tree_of "fa? ji/ roi suq/ ne\ poq/"))) as [v|] eqn:V; [|discriminate].
  destruct (unscoped _ _ _ _ E V) as (d & H). eexists _, d, _. exact H.
Qed.
Lemma unscoped_hi :
  exists text d t, parses text d /\ outcome ascii_unicode d (Ok (Some t)) /\ ~ scoped t.
Proof.
  assert (E : logic_of "sa do/ bi dua? ji/ ru suq/ mai^ hi poq/ do/" = Ok (Some (tree_of "sa do/ bi dua? ji/ ru suq/ mai^ hi poq/ do/"))) by (vm_compute; reflexivity).
  assert (L : match loose (snd (tree_of "sa do/ bi dua? ji/ ru suq/ mai^ hi poq/ do/")) 100 [] (fst (tree_of "sa do/ bi dua? ji/ ru suq/ mai^ hi poq/ do/")) with Some _ => true | None => false end = true) by (vm_compute; reflexivity).
  destruct (loose (snd (tree_of "sa do/ bi dua? ji/ ru suq/ mai^ hi poq/ do/")) 100 [] (fst (tree_of "sa do/ bi dua? ji/ ru suq/ mai^ hi poq/ do/"))) as [v|] eqn:V; [|discriminate].
  destruct (unscoped _ _ _ _ E V) as (d & H). eexists _, d, _. exact H.
Qed.

(** ** Numbers *)
Definition introducers (t : ref * heap) (l : list ref) : list ref := nodup Nat.eq_dec (filter (introduces (snd t)) l).
Definition big_number (t : ref * heap) : option (ref * nat) :=
  let l := introducers t (visit_of t) in
  first_some (fun r => match number (snd t) r with
                       | Some v => if length l <=? v then Some (r, v) else None
                       | None => None
                       end) (visit_of t).

Lemma gap_in_numbers :
  exists text d t l r v, parses text d /\ outcome ascii_unicode d (Ok (Some t)) /\ nodes t l /\
    In r l /\ number (snd t) r = Some v /\ length (introducers t l) <= v.
Proof.
  exists "dua? ji/ ru suq/ mai^ hi poq/ deq/".
  assert (E : logic_of "dua? ji/ ru suq/ mai^ hi poq/ deq/" = Ok (Some (tree_of "dua? ji/ ru suq/ mai^ hi poq/ deq/"))) by (vm_compute; reflexivity).
  assert (L : match big_number (tree_of "dua? ji/ ru suq/ mai^ hi poq/ deq/") with Some _ => true | None => false end = true) by (vm_compute; reflexivity).
  assert (W : visited (snd (tree_of "dua? ji/ ru suq/ mai^ hi poq/ deq/")) 100 (fst (tree_of "dua? ji/ ru suq/ mai^ hi poq/ deq/")) = Ok (visit_of (tree_of "dua? ji/ ru suq/ mai^ hi poq/ deq/"))) by (vm_compute; reflexivity).
  destruct (logic_of_ok _ _ E) as (d & P & O); [discriminate|]. revert L W O. generalize (tree_of "dua? ji/ ru suq/ mai^ hi poq/ deq/"). intros t L W O.
  destruct (big_number t) as [[r v]|] eqn:B; [|discriminate].
  exists d, t, (visit_of t), r, v. split; [exact P|]. split; [exact O|]. split; [exists 100; exact W|].
  unfold big_number in B. apply first_some_In in B. destruct B as (x & I & B).
  destruct (number (snd t) x) as [w|] eqn:N; [|discriminate]. destruct (Nat.leb_spec (length (introducers t (visit_of t))) w); [|discriminate].
  injection B as <- <-. auto.
Qed.

(** ** The period *)
Lemma no_period :
  exists text d t s, parses text d /\ outcome ascii_unicode d (Ok (Some t)) /\ prints ascii_unicode (Some t) s /\
    forall body, s <> (body ++ ".")%string.
Proof.
  exists "sa do/ bi gi? sa poq/".
  destruct (logic_string_ok "sa do/ bi gi? sa poq/" "∃X0 [∃X1 : poq(X1)] gi(X1)") as (d & t & P & O & S); [vm_compute; reflexivity|].
  assert (T : t <> None).
  { intros ->. destruct S as [f S]. specialize (S f (le_n _)). discriminate. }
  destruct t as [t|]; [|congruence]. exists d, t, "∃X0 [∃X1 : poq(X1)] gi(X1)". split; [exact P|]. split; [exact O|]. split; [exact S|].
  intros body E. apply (f_equal (fun s => list_ascii_of_string s)) in E.
  assert (A : forall b, list_ascii_of_string (b ++ ".") = list_ascii_of_string b ++ ["."%char]) by (induction b; cbn; congruence).
  rewrite A in E. apply (f_equal (@rev _)) in E. rewrite rev_app_distr in E. vm_compute in E. discriminate.
Qed.

(** ** Texts that the theorems apply to *)
Lemma fragment_case : exists d, parses "suq/ ru ji/" d /\ outcome ascii_unicode d (Ok None).
Proof. apply logic_of_ok; [vm_compute; reflexivity|discriminate]. Qed.
Lemma sentence_case : exists d t, parses "gi? suq/ da gi? ji/" d /\ outcome ascii_unicode d (Ok (Some t)).
Proof.
  assert (E : logic_of "gi? suq/ da gi? ji/" = Ok (Some (tree_of "gi? suq/ da gi? ji/"))) by (vm_compute; reflexivity).
  destruct (logic_of_ok _ _ E) as (d & H); [discriminate|]. exists d. eexists. exact H.
Qed.

Definition toaq_namesb (h : heap) : bool :=
  forallb (fun c => match c with
                    | CPred (String c _) => ((97 <=? byte_of c) && (byte_of c <=? 120))%N
                    | CPred EmptyString => false
                    | _ => true
                    end) h.
Lemma toaq_namesb_ok h : toaq_namesb h = true -> toaq_names h.
Proof.
  unfold toaq_namesb. rewrite forallb_forall. intros H name I. specialize (H _ I). cbn in H. destruct name as [|c rest]; [discriminate|].
  right; right. exists c, rest. split; [reflexivity|]. apply andb_prop in H. destruct H as [H1 H2].
  apply N.leb_le in H1, H2. split; assumption.
Qed.

(** A tree with two bindings and a free variable, and its string. *)
Lemma numbers_case :
  exists d t l, parses "mai? tu poq/ sa deq/" d /\ outcome ascii_unicode d (Ok (Some t)) /\ nodes t l /\
    NoDup (filter (introduces (snd t)) l) /\ length (filter (introduces (snd t)) l) = 2 /\
    (exists x b, In x l /\ refers (snd t) x b /\ before l b x /\ introduces (snd t) b = true) /\
    (forall v w, In v (variable_numbers (snd t) l) -> w <= v -> In w (variable_numbers (snd t) l)) /\
    toaq_names (snd t) /\
    prints ascii_unicode (Some t) "[∀P : poq(P)] [∃D : deq(D)] mai(P, D).".
Proof.
  assert (E : logic_of "mai? tu poq/ sa deq/" = Ok (Some (tree_of "mai? tu poq/ sa deq/"))) by (vm_compute; reflexivity).
  destruct (logic_of_ok _ _ E) as (d & P & O); [discriminate|].
  assert (W : visited (snd (tree_of "mai? tu poq/ sa deq/")) 100 (fst (tree_of "mai? tu poq/ sa deq/")) = Ok (visit_of (tree_of "mai? tu poq/ sa deq/"))) by (vm_compute; reflexivity).
  assert (Q : string_ ascii_unicode 100 (Some (tree_of "mai? tu poq/ sa deq/")) = Ok "[∀P : poq(P)] [∃D : deq(D)] mai(P, D).") by (vm_compute; reflexivity).
  exists d, (tree_of "mai? tu poq/ sa deq/"), (visit_of (tree_of "mai? tu poq/ sa deq/")).
  split; [exact P|]. split; [exact O|]. split; [exists 100; exact W|].
  split; [vm_compute; repeat constructor; cbn; intuition discriminate|]. split; [vm_compute; reflexivity|].
  split.
  { exists 5, 4. split; [vm_compute; tauto|]. split; [eexists _, _; vm_compute; reflexivity|]. split; [|vm_compute; reflexivity].
    exists [0; 3; 2; 1], [7; 6], [9; 8; 1; 5]. vm_compute. reflexivity. }
  split; [vm_compute; intros v w I L; repeat (destruct I as [<-|I]; [lia|]); contradiction|].
  split; [|eapply prints_intro, Q].
  apply toaq_namesb_ok. vm_compute. reflexivity.
Qed.

(** A connected argument followed by one that is not connected. *)
Lemma connected_case :
  exists d p je na da f t w l r y st bi z ts s,
    parses "mai? ji/ ru suq/ poq/" d /\
    d = [NSentence je (NPredication p (Some [NCoP CArgument f t w l r; y]) na) da] /\
    has_text ascii_unicode w "roi" = false /\ plain ascii_unicode [y] /\
    run ascii_unicode (o_letters diacritic) 20 20 _ (KPrenex [] st bi [NCoP CArgument f t w l r; y]) st0 = Ok (z, ts, s).
Proof.
  destruct (parsed "mai? ji/ ru suq/ poq/") as [n|] eqn:P; [|vm_compute in P; discriminate].
  assert (PP := parsed_ok _ _ P). vm_compute in P. injection P as <-.
  match type of PP with _ = Ok (Got (Some (NText ?lead ?dd))) =>
    assert (Pd : parses "mai? ji/ ru suq/ poq/" dd) by (exists lead; exact PP);
    match dd with [NSentence ?je (NPredication ?p (Some [NCoP CArgument ?f ?t ?w ?l ?r; ?y]) ?na) ?da] =>
      exists dd, p, je, na, da, f, t, w, l, r, y, (NPredication p None na), w end end.
  do 3 eexists. split; [exact Pd|]. split; [reflexivity|]. split; [vm_compute; reflexivity|]. split; [|vm_compute; reflexivity].
  repeat constructor. intros [(? & ? & ? & ? & ? & X & _)|(? & ? & X & _)]; discriminate.
Qed.
