(** What Interpret supports of a parsed text depends on the connectives only. *)

From Coq Require Import String Ascii NArith ZArith PArith List Bool FMapPositive Lia.
From Verif Require Import Base Utf8 Utf8Facts Tone PegSyntax Ast AstInd Parser ParserSpec AstSorts LogicWords LogicSpec Logic Interp LogicString LogicApi ScopeSpec Shown FuncWords FuncTree.
From Verif Require AstCases LogicSafe ScopeTotal ScopeCases ShownCases.
Import ListNotations.
Open Scope nat_scope.
Open Scope list_scope.
Open Scope string_scope.

Lemma fold_low U r : plain_unicode U -> low r = true -> fold_rune U r = fold_rune ascii_unicode r.
Proof.
  intros [_ P] L. unfold fold_rune. set (x := if N.eqb r (rune_of "ı") then _ else _).
  assert (X : (x < 128)%N).
  { unfold x. destruct (N.eqb_spec r (rune_of "ı")) as [->|N]; [vm_compute; reflexivity|]. unfold low in L. apply orb_prop in L. destruct L as [L|L]; [apply N.ltb_lt, L|].
    apply N.eqb_eq in L. exfalso. apply N. rewrite L. vm_compute. reflexivity. }
  destruct (P x X) as [-> _]. unfold ascii_unicode. cbn [u_lower]. reflexivity.
Qed.
Lemma same_text_map U a b : same_text U a b = true <-> map (fold_rune U) a = map (fold_rune U) b.
Proof.
  revert b. induction a as [|x a IH]; intros [|y b]; cbn [same_text map]; try (split; discriminate); [tauto|].
  destruct (N.eqb_spec (fold_rune U x) (fold_rune U y)) as [E|N]; [rewrite E, IH; split; [intros ->; reflexivity|intros H; injection H; auto]|].
  split; [discriminate|]. intros H. injection H. contradiction.
Qed.
Lemma map_fold_low U a : plain_unicode U -> forallb low a = true -> map (fold_rune U) a = map (fold_rune ascii_unicode) a.
Proof. intros P F. rewrite forallb_forall in F. apply map_ext_in. intros r I. apply fold_low; auto. Qed.
Lemma same_text_low U a b : plain_unicode U -> forallb low a = true -> forallb low b = true -> same_text U a b = same_text ascii_unicode a b.
Proof. intros P A B. apply eq_iff_eq_true. rewrite !same_text_map, (map_fold_low U a), (map_fold_low U b) by assumption. reflexivity. Qed.

(** A word of a group: its letters, and how hasText compares it. *)
Lemma good_word U g w : plain_unicode U -> goodb g (w_t w) = true ->
  exists x, In x (group_words g) /\ plain (w_t w) = plain x /\
    forall y, forallb low (runes y) = true -> has_text U w y = same_text ascii_unicode (runes x) (runes y).
Proof.
  intros P G. unfold goodb in G. apply existsb_exists in G. destruct G as (x & I & G). apply andb_prop in G. destruct G as [G T]. apply andb_prop in G. destruct G as [G L].
  exists x. split; [exact I|]. split; [apply same_letters_eq, G|]. intros y Y. unfold has_text. rewrite same_text_low by assumption.
  apply same_text_map in T. apply eq_iff_eq_true. rewrite !same_text_map, T. reflexivity.
Qed.
Lemma one_of_group U g w l : plain_unicode U -> goodb g (w_t w) = true -> forallb (fun x => forallb low (runes x)) l = true ->
  forallb (fun x => existsb (fun y => same_text ascii_unicode (runes x) (runes y)) l) (group_words g) = true -> one_of U l w = true.
Proof.
  intros P G L C. destruct (good_word U g w P G) as (x & I & _ & H). rewrite forallb_forall in C. specialize (C _ I). apply existsb_exists in C. destruct C as (y & J & E).
  unfold one_of. apply existsb_exists. exists y. split; [exact J|]. rewrite forallb_forall in L. rewrite H by (apply L, J). exact E.
Qed.
Lemma connects_joins U k w : plain_unicode U -> goodb GRa (w_t w) = true -> connects U k w = joins k w.
Proof.
  intros P G. destruct (good_word U GRa w P G) as (x & I & E & H). unfold connects, joins, one_of. rewrite E. destruct k; cbn [existsb]; rewrite !H by (vm_compute; reflexivity).
  all: cbn [group_words In] in I; repeat (destruct I as [<-|I]; [vm_compute; reflexivity|]); destruct I.
Qed.

Definition all_good (n : node) : Prop := forall g s, In (g, s) (function_words n) -> goodb g s = true.
Lemma forall_ext (f h : node -> bool) d : Forall (fun n => all_good n -> f n = h n) d -> (forall g s, In (g, s) (flat_map function_words d) -> goodb g s = true) -> forallb f d = forallb h d.
Proof.
  intros F. induction F as [|n d E F IH]; intros G; [reflexivity|]. cbn [forallb flat_map] in *. rewrite E, IH; [reflexivity| |]; intros g s I; apply G, in_app_iff; auto.
Qed.
Lemma supported_connected U n : plain_unicode U -> all_good n -> supported U n = connected n.
Proof.
  intros P. revert n. apply (node_word_ind (fun n => all_good n -> supported U n = connected n) (fun _ => True)); intros; try exact I.
  all: match goal with H : all_good _ |- _ => rename H into G; unfold all_good in G; rewrite function_words_eq in G end; cbn [supported connected].
  all: try reflexivity.
  all: repeat match goal with o : option _ |- _ => destruct o end; cbn [onO ofw tfw mfw] in *.
  all: repeat match goal with H : all_good ?n -> _ |- _ => rewrite H by (intros ? ? ?; apply G; rewrite ?in_app_iff; tauto); clear H end.
  all: repeat match goal with H : Forall _ ?d |- _ => rewrite (forall_ext _ _ _ H) by (intros ? ? ?; apply G; rewrite ?in_app_iff; tauto); clear H end.
  all: try reflexivity.
  all: try match goal with
    | P : plain_unicode ?U, G : forall g s, In _ _ -> _ |- context [one_of ?U ?l ?w] =>
        match type of G with context [fw ?g w] => rewrite (one_of_group U g w l P (G g (w_t w) ltac:(unfold fw; rewrite ?in_app_iff; cbn [In]; tauto)) eq_refl eq_refl) end
    | P : plain_unicode ?U, G : forall g s, In _ _ -> _ |- context [connects ?U ?k ?w] => rewrite (connects_joins U k w P (G GRa (w_t w) ltac:(unfold fw; rewrite ?in_app_iff; cbn [In]; tauto)))
    end.
  all: try reflexivity.
  specialize (G GMu (w_t mu) ltac:(unfold fw; rewrite ?in_app_iff; cbn [In]; tauto)). discriminate G.
Qed.

(** The sentences of a parsed text. *)
Lemma text_supported is_punct text p lead d U : letters_no_punct is_punct -> plain_unicode U -> reach is_punct text p ->
  fst (text_of is_punct p) = Ok (Got (Some (NText lead d))) -> forall n, In n d -> supported U n = connected n.
Proof.
  intros N P R E n I. apply supported_connected; [exact P|]. intros g s J. apply (text_fw _ _ _ _ N R E). rewrite function_words_eq, in_app_iff. right. apply in_flat_map. eauto.
Qed.

(** ** Interpret on parsed texts *)

Section Text.
Variables (is_punct : N -> bool) (text : string) (p : parser) (lead : option node) (d : list node) (U : unicode).
Hypothesis N : letters_no_punct is_punct.
Hypothesis PU : plain_unicode U.
Hypothesis R : reach is_punct text p.
Hypothesis E : fst (text_of is_punct p) = Ok (Got (Some (NText lead d))).
Lemma connected_no_panic : (forall n, In n d -> is_sentence n = true -> well_sorted n = true /\ connected n = true) ->
  (forall q, ~ outcome U d (Panic q)) /\
  forall t, outcome U d (Ok t) -> forall keys pretty fuel q, print U keys pretty fuel t <> Panic q.
Proof.
  intros S. assert (S' : forall n, In n d -> is_sentence n = true -> well_sorted n = true /\ supported U n = true).
  { intros n I J. rewrite (text_supported _ _ _ _ _ _ N PU R E n I). auto. }
  split; [intros q; exact (LogicSafe.text_no_panic _ _ _ _ _ _ R E S' q)|intros t; exact (LogicSafe.text_print_no_panic _ _ _ _ _ _ R E S' t)].
Qed.
Lemma connected_returns : (forall n, In n d -> is_sentence n = true -> well_sorted n = true /\ connected n = true /\ first_order U (o_letters diacritic) n = true) ->
  exists t, outcome U d (Ok t) /\ exists f0, forall keys pretty f, f0 <= f -> exists s, print U keys pretty f t = Ok s.
Proof.
  intros S. apply (ScopeTotal.text_returns _ _ _ _ _ _ R E). intros n I J. rewrite (text_supported _ _ _ _ _ _ N PU R E n I). auto.
Qed.
End Text.

(** ** Cases *)

Lemma ascii_no_punct : letters_no_punct ascii_punct.
Proof.
  assert (C : forallb (fun r => negb (ascii_punct r)) inner_runes = true) by (vm_compute; reflexivity).
  intros r I. rewrite forallb_forall in C. apply C in I. apply negb_true_iff, I.
Qed.
Definition words_text : string :=
  "Je kU sIa poq/ bi hao? Suq/ beI da keo ke poq/ bi to ru gi? to hao? fi suq/ kio fa? ji/ ki na moq?? po? poq/ ga ji/ hu suq/ da mo? gi? teo ji/ ju gi? suq/ da Shu? hoa? ga lu/ gi? na roi JI/".
Lemma words_case : exists n, fst (text_of ascii_punct (new_parser words_text)) = Ok (Got (Some n)) /\
  function_words n =
    [(GKeo, "Je"); (GKu, "kU"); (GTu, "sIa"); (GBi, "bı"); (GBei, "beI"); (GDa, "da");
     (GKeo, "keo"); (GTu, "ke"); (GBi, "bı"); (GTo, "to"); (GRa, "ru"); (GTo, "to"); (GGo, "fı"); (GKio, "kıo"); (GKi, "kı"); (GNa, "na"); (GDa, "moq");
     (GPo, "pỏ"); (GGa, "ga"); (GHu, "hu"); (GDa, "da"); (GMo, "mỏ"); (GTeo, "teo"); (GJu, "ju"); (GDa, "da"); (GMi, "Shủ"); (GGa, "ga"); (GRa, "roı"); (GLu, "lú"); (GNa, "na")].
Proof.
  destruct (AstCases.parsed words_text) as [n|] eqn:P; [|vm_compute in P; discriminate].
  exists n. split; [apply AstCases.parsed_ok, P|]. vm_compute in P. injection P as <-. vm_compute. reflexivity.
Qed.
Lemma connected_case : exists lead d, fst (text_of ascii_punct (new_parser LogicSafe.supported_text)) = Ok (Got (Some (NText lead d))) /\ has_sentence d /\
  forall n, In n d -> is_sentence n = true -> well_sorted n = true /\ connected n = true.
Proof.
  destruct LogicSafe.supported_case as (lead & d & P & H & S). exists lead, d. split; [exact P|]. split; [exact H|]. intros n I J. destruct (S n I J) as [A B]. split; [exact A|].
  rewrite <- B. symmetry. apply (text_supported ascii_punct LogicSafe.supported_text (new_parser LogicSafe.supported_text) lead d); auto using ascii_no_punct, ShownCases.ascii_plain; constructor.
Qed.
Lemma connected_total_case : exists lead d, fst (text_of ascii_punct (new_parser ScopeCases.total_text)) = Ok (Got (Some (NText lead d))) /\ has_sentence d /\
  forall n, In n d -> is_sentence n = true -> well_sorted n = true /\ connected n = true /\ first_order ascii_unicode (o_letters diacritic) n = true.
Proof.
  destruct ScopeCases.total_case as (lead & d & P & H & S). exists lead, d. split; [exact P|]. split; [exact H|]. intros n I J. destruct (S n I J) as (A & B & C). split; [exact A|]. split; [|exact C].
  rewrite <- B. symmetry. apply (text_supported ascii_punct ScopeCases.total_text (new_parser ScopeCases.total_text) lead d); auto using ascii_no_punct, ShownCases.ascii_plain; constructor.
Qed.
