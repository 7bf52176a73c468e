(** What the server prints of a parsed text is UTF-8. *)

From Coq Require Import String Ascii NArith List Bool Arith Lia.
From Verif Require Import Base Utf8 Utf8Facts PegSyntax Peg TreeSpec Tone Ast AstInd AstSorts VisitSpec Braces LogicString App Pretty JsonFacts Utf8Valid PegText.
Import ListNotations.
Open Scope string_scope.
Open Scope list_scope.
Open Scope nat_scope.

(** ** The parse tree *)

Lemma proper_kid nm t kids m : proper (PNode nm t kids) -> In m kids -> proper m.
Proof. intros P I x X. apply P. econstructor 2; eassumption. Qed.
Lemma utf8_tab : utf8 tab_char. Proof. lit tab_char. Qed.
Lemma utf8_newline : utf8 newline. Proof. lit newline. Qed.
Lemma utf8_quote : utf8 quote_char. Proof. lit quote_char. Qed.
Ltac u8 :=
  repeat first [ assumption | apply utf8_tab | apply utf8_newline | apply utf8_quote | apply utf8_nil | apply utf8_itoa
    | match goal with |- utf8 (_ ++ _)%string => apply utf8_app end
    | match goal with |- utf8 ?s => (lit s) end ].
Lemma pretty_node_utf8 : forall n tab, proper n -> utf8 tab -> utf8 (pretty_node tab n).
Proof.
  fix IH 1. intros [nm t kids] tab P T. assert (P0 := P). destruct (P0 _ (InHere _)) as [Vt Vn]. cbn [p_text p_name] in Vt, Vn.
  assert (K : forall tab, utf8 tab -> (forall m, In m kids -> proper m) -> Forall (fun k => utf8 (pretty_node tab k)) kids).
  { clear P P0 Vt. clear tab T. intros tab T. induction kids as [|m l IHl]; intros F; [constructor|]. constructor; [apply IH; [apply F; left; reflexivity|exact T]|apply IHl; intros x X; apply F; right; exact X]. }
  assert (F : forall m, In m kids -> proper m) by (intros m I; exact (proper_kid _ _ _ _ P I)). clear P P0 IH.
  assert (L : utf8 (tab ++ nm ++ "{" ++ String.concat "" (map (fun k => newline ++ pretty_node (tab ++ tab_char) k ++ ",") kids) ++ newline ++ tab ++ "}")%string).
  { assert (V : utf8 (String.concat "" (map (fun k => newline ++ pretty_node (tab ++ tab_char) k ++ ",")%string kids))).
    { apply utf8_concat, Forall_forall. intros s X. apply in_map_iff in X. destruct X as (k & <- & X). assert (Y := K (tab ++ tab_char)%string ltac:(u8) F). rewrite Forall_forall in Y. specialize (Y k X). u8. }
    u8. }
  destruct kids as [|k [|k' l]].
  - cbn [pretty_node]. cbv zeta. apply utf8_app; [exact T|]. destruct (String.eqb nm ""); u8.
  - destruct k as [n1 t1 [|k1 l1]]; [|exact L]. assert (Y := K "" utf8_nil F). inversion Y; subst. change (utf8 (tab ++ nm ++ "{" ++ pretty_node "" (PNode n1 t1 []) ++ "}")%string). u8.
  - destruct k as [n1 t1 [|k1 l1]]; exact L.
Qed.

(** ** Braces *)

Definition clear_words (l : list word) : Prop := forall w, In w l -> utf8 (w_t w).
Lemma clear_app a b : clear_words (a ++ b) <-> clear_words a /\ clear_words b.
Proof. unfold clear_words. split; [intros H; split; intros w W; apply H; apply in_or_app; auto|intros [A B] w W; apply in_app_or in W; destruct W; auto]. Qed.
Definition kid_ok (k : kid) : Prop := match k with Some f => forall c, utf8 (f c) | None => True end.
Lemma utf8_join l : Forall utf8 l -> utf8 (join l).
Proof. induction 1 as [|x l X F IH]; [apply utf8_nil|]. cbn [join]. destruct l; [exact X|]. u8. Qed.
Lemma utf8_given xs : Forall kid_ok xs -> forall c, Forall utf8 (map (fun f => f c) (given xs)).
Proof. induction 1 as [|[f|] xs X F IH]; intros c; cbn [given map]; [constructor| |apply IH]. constructor; [apply X|apply IH]. Qed.
Lemma utf8_open c : utf8 (open_brace c) /\ utf8 (close_brace c).
Proof.
  destruct c as [|[|[|[|c]]]]; [split; [lit "("|lit ")"]|split; [lit "{"|lit "}"]|split; [lit "["|lit "]"]|split; [lit "<"|lit ">"]|].
  split; cbn; destruct c; apply utf8_nil.
Qed.
Lemma utf8_kids c xs : Forall kid_ok xs -> utf8 (brace_kids c xs).
Proof.
  intros F. unfold brace_kids. destruct (_ <? _); [|apply utf8_join, utf8_given, F]. destruct (utf8_open c) as [A B].
  assert (V := utf8_join _ (utf8_given _ F ((c + 1) mod 4))). u8.
Qed.
Definition prints_node (n : node) : Prop := clear_words (words n) -> forall c, utf8 (braces c n).
Definition prints_word (w : word) : Prop := clear_words (wwords w) -> forall c, utf8 (braces_word c w) /\ utf8 (braces c (NSpace w)).
Lemma kid_node n : prints_node n -> clear_words (words n) -> kid_ok (node_kid braces n).
Proof. intros H C. unfold node_kid. destruct (only_space n); [exact I|]. exact (H C). Qed.
Lemma kid_node_opt o : onO prints_node o -> clear_words (olist words o) -> kid_ok (node_kid_opt braces o).
Proof. destruct o; [apply kid_node|intros; exact I]. Qed.
Lemma kid_word w : prints_word w -> clear_words (wwords w) -> kid_ok (word_kid braces_word w).
Proof. intros H C c. exact (proj1 (H C c)). Qed.
Lemma kid_word_opt o : onO prints_word o -> clear_words (olist wwords o) -> kid_ok (word_kid_opt braces_word o).
Proof. destruct o; [apply kid_word|intros; exact I]. Qed.
Lemma kid_map d : Forall prints_node d -> clear_words (flat_map words d) -> Forall kid_ok (map (node_kid braces) d).
Proof. induction 1 as [|n d N F IH]; intros C; cbn [map]; constructor; cbn [flat_map] in C; apply clear_app in C; [apply kid_node; tauto|apply IH; tauto]. Qed.
Lemma kid_list d : Forall prints_node d -> clear_words (flat_map words d) -> kid_ok (list_kid braces d).
Proof. intros F C c. apply utf8_kids, kid_map; assumption. Qed.
Lemma kid_list_opt o : onO (Forall prints_node) o -> clear_words (olist (flat_map words) o) -> kid_ok (list_kid_opt braces o).
Proof. destruct o; [apply kid_list|intros; exact I]. Qed.
Lemma braces_utf8 : (forall n, prints_node n) /\ (forall w, prints_word w).
Proof.
  apply node_word_ind; intros; match goal with |- prints_node _ => intros C c | |- prints_word _ => intros C c end.
  25: destruct to0.
  all: cbn [words wwords olist] in C; rewrite ?clear_app in C; cbn [braces braces_word].
  all: repeat match goal with H : _ /\ _ |- _ => destruct H end.
  all: try (apply utf8_kids; repeat constructor; auto using kid_node, kid_node_opt, kid_word, kid_word_opt, kid_map, kid_list, kid_list_opt; fail).
  all: try (match goal with H : prints_word _ |- _ => apply H; assumption end).
  all: try (match goal with H : prints_node _ |- _ => apply H; assumption end).
  assert (V : utf8 t) by exact (C _ (or_introl eq_refl)). assert (D : clear_words (olist words m)) by (intros x X; apply C; right; exact X). split.
  - apply utf8_kids. constructor; [intros c'; exact V|]. constructor; [apply kid_node_opt; assumption|constructor].
  - destruct m as [m|]; [apply H, D|apply utf8_nil].
Qed.

(** ** The syntax tree *)

Definition value_ok (v : value) : Prop := forall i, utf8 i -> utf8 (show_value i v).
Lemma ok_struct name fields : utf8 name -> Forall (fun f => utf8 (fst f) /\ value_ok (snd f)) fields -> value_ok (GStruct name fields).
Proof.
  intros N F i I. cbn [show_value].
  match goal with |- utf8 (_ ++ _ ++ ?g fields ++ _)%string => assert (V : forall l, Forall (fun f => utf8 (fst f) /\ value_ok (snd f)) l -> utf8 (g l)) end.
  { intros l. induction 1 as [|[f x] l [A B] Fl IH]; [destruct fields; [apply utf8_nil|exact I]|]. cbn [fst snd] in *. assert (X : utf8 (show_value (i ++ tab_char) x)) by (apply B; u8). u8. }
  specialize (V fields F). u8.
Qed.
Lemma ok_list l : Forall value_ok l -> value_ok (GList l).
Proof.
  intros F i I. destruct l as [|v l]; [lit "[]"|]. cbn [show_value].
  match goal with |- utf8 (_ ++ (_ ++ _ ++ _ ++ ?g l) ++ _)%string => assert (V : forall l, Forall value_ok l -> utf8 (g l)) end.
  { intros l'. induction 1 as [|x l' B Fl IH]; [exact I|]. assert (X : utf8 (show_value (i ++ tab_char) x)) by (apply B; u8). u8. }
  inversion F; subst. specialize (V l H2). assert (X : utf8 (show_value (i ++ tab_char) v)) by (apply H1; u8). u8.
Qed.
Lemma ok_made s : utf8 s -> value_ok (GMade s).
Proof. intros V i _. exact V. Qed.
Lemma ok_nil : value_ok GNil.
Proof. intros i _. lit "nil". Qed.
Notation sorted := (AstSorts.sorted real_left real_right).
Definition node_ok (n : node) : Prop := sorted n = true -> clear_words (words n) -> value_ok (node_value n).
Lemma ok_word w : clear_words (wwords w) -> value_ok (word_value w).
Proof. intros C. apply ok_made. assert (V : utf8 (w_t w)) by (destruct w; apply C; left; reflexivity). u8. Qed.
Lemma ok_word_opt o : clear_words (olist wwords o) -> value_ok (opt_word o).
Proof. destruct o; [apply ok_word|intros; apply ok_nil]. Qed.
Lemma ok_nodes l d : Forall node_ok d -> forallb (fun x => among l x && sorted x) d = true -> clear_words (flat_map words d) -> value_ok (GList (map node_value d)).
Proof.
  intros F S C. apply ok_list. induction F as [|n d N F IH]; [constructor|]. cbn [map]. cbn [forallb] in S. apply andb_prop in S. destruct S as [S S']. apply andb_prop in S. cbn [flat_map] in C. apply clear_app in C.
  constructor; [apply N; tauto|apply IH; tauto].
Qed.
Lemma ok_node l n : node_ok n -> among l n && sorted n = true -> clear_words (words n) -> value_ok (node_value n).
Proof. intros N S C. apply andb_prop in S. apply N; tauto. Qed.
Lemma ok_node_opt l o : onO node_ok o -> on_opt (fun x => among l x && sorted x) o = true -> clear_words (olist words o) -> value_ok (match o with None => GNil | Some x => node_value x end).
Proof. destruct o; [apply ok_node|intros; apply ok_nil]. Qed.
Lemma ok_nodes_opt l o : onO (Forall node_ok) o -> on_opt (fun d => nonempty d && forallb (fun x => among l x && sorted x) d) o = true -> clear_words (olist (flat_map words) o) ->
  value_ok (GList (match o with None => [] | Some d => map node_value d end)).
Proof.
  destruct o as [d|]; [|intros; apply ok_list; constructor]. cbn [onO on_opt olist]. intros F S C. apply andb_prop in S. eapply ok_nodes; [exact F|exact (proj2 S)|exact C].
Qed.
Lemma utf8_lit s : String.eqb (of_runes (runes s)) s = true -> utf8 s.
Proof. intros E. apply String.eqb_eq in E. rewrite <- E. apply utf8_of. Qed.
Lemma utf8_cop k : utf8 (cop_name k).
Proof. apply utf8_lit. destruct k; vm_compute; reflexivity. Qed.
Lemma utf8_lu k : utf8 (lu_name k).
Proof. apply utf8_lit. destruct k; vm_compute; reflexivity. Qed.
Lemma fields_nil : Forall (fun f : string * value => utf8 (fst f) /\ value_ok (snd f)) [].
Proof. constructor. Qed.
Lemma fields_cons s v l : String.eqb (of_runes (runes s)) s = true -> value_ok v -> Forall (fun f => utf8 (fst f) /\ value_ok (snd f)) l ->
  Forall (fun f => utf8 (fst f) /\ value_ok (snd f)) ((s, v) :: l).
Proof. intros E V F. constructor; [split; [apply utf8_lit, E|exact V]|exact F]. Qed.
Lemma ok_text a w b : String.eqb (of_runes (runes a)) a = true -> String.eqb (of_runes (runes b)) b = true -> clear_words (wwords w) -> value_ok (GMade (a ++ quote_char ++ w_t w ++ quote_char ++ b)).
Proof. intros A B C. apply ok_made. apply utf8_lit in A, B. assert (V : utf8 (w_t w)) by (destruct w; apply C; left; reflexivity). repeat apply utf8_app; try apply utf8_quote; assumption. Qed.
Opaque value_ok utf8.
Ltac fields := apply ok_struct; [first [apply utf8_cop|apply utf8_lu|apply utf8_lit; vm_compute; reflexivity]|repeat (apply fields_cons; [vm_compute; reflexivity| |]); try apply fields_nil].
Ltac field := first [ exact ok_nil | apply ok_word; assumption | apply ok_word_opt; assumption | eapply ok_nodes; eassumption | eapply ok_node; eassumption | eapply ok_node_opt; eassumption | eapply ok_nodes_opt; eassumption ].
Lemma node_value_utf8 : (forall n, node_ok n) /\ (forall w : word, True).
Proof.
  apply node_word_ind; intros; try exact I; match goal with |- node_ok _ => intros So C end.
  25: destruct to0, to1.
  all: cbn [words wwords olist AstSorts.sorted] in *; rewrite ?clear_app in C; cbn [node_value].
  all: repeat match goal with H : _ && _ = true |- _ => match type of H with among _ _ && _ = true => fail 1 | _ => apply andb_prop in H; destruct H end end.
  all: repeat match goal with H : _ /\ _ |- _ => destruct H end.
  all: try (fields; field; fail).
  all: try (apply ok_text; [vm_compute; reflexivity|vm_compute; reflexivity|assumption]).
  all: try (field; fail).
  all: match goal with H : same_opt None (Some _) = true |- _ => discriminate H end.
Qed.
Transparent value_ok utf8.
