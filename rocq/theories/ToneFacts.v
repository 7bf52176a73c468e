(** Proofs about the model of tone/tone.go. *)

From Coq Require Import String Ascii NArith ZArith List Bool Permutation Lia.
From Verif Require Import Base Utf8 Utf8Facts Tone ToneSpec.
Import ListNotations.
Open Scope string_scope.
Open Scope list_scope.
Open Scope N_scope.

(** ** Lookup in maps built by successive assignment *)

Definition functional {B} (l : list (N * B)) : Prop :=
  forall k v v', In (k, v) l -> In (k, v') l -> v = v'.

Lemma lookup_In {B} k (l : list (N * B)) v : lookup k l = Some v -> In (k, v) l.
Proof.
  induction l as [|[k' v'] l IH]; simpl; [discriminate|].
  destruct (N.eqb_spec k k') as [->|]; [intros [= ->]; auto|auto].
Qed.

Lemma lookup_not_None {B} k (l : list (N * B)) v : In (k, v) l -> lookup k l <> None.
Proof.
  induction l as [|[k' v'] l IH]; simpl; [tauto|].
  intros [[= -> ->]|H]; [rewrite N.eqb_refl; congruence|].
  destruct (k =? k'); [congruence|auto].
Qed.

Lemma lookup_functional {B} k (l : list (N * B)) v :
  functional l -> (lookup k l = Some v <-> In (k, v) l).
Proof.
  intros F. split; [apply lookup_In|]. intros H.
  destruct (lookup k l) as [v'|] eqn:E.
  - f_equal. eapply F; [apply lookup_In, E|exact H].
  - exfalso. eapply lookup_not_None; eauto.
Qed.

Lemma lookup_set_eq {B} (l l' : list (N * B)) :
  functional l -> (forall x, In x l <-> In x l') -> forall k, lookup k l = lookup k l'.
Proof.
  intros F E k.
  assert (F' : functional l') by (intros a b c H1 H2; apply (F a); apply E; assumption).
  destruct (lookup k l) as [v|] eqn:L.
  - symmetry. apply lookup_functional; auto. apply E, lookup_In, L.
  - destruct (lookup k l') as [v|] eqn:L'; auto.
    apply lookup_In in L'. apply E in L'. apply lookup_not_None in L'. congruence.
Qed.

Lemma fold_cons_opt {A B} (g : A -> option B) (l : list A) (acc : list B) :
  forall x, In x (fold_left (fun m y => match g y with Some b => b :: m | None => m end) l acc)
  <-> In x acc \/ exists y, In y l /\ g y = Some x.
Proof.
  revert acc. induction l as [|y l IH]; simpl; intros acc x.
  - firstorder.
  - rewrite IH. destruct (g y) eqn:E; simpl; split.
    + intros [[->|H]|(z & Hz & Ez)]; eauto.
    + intros [H|(z & [->|Hz] & Ez)]; eauto. left. left. congruence.
    + intros [H|(z & Hz & Ez)]; eauto.
    + intros [H|(z & [->|Hz] & Ez)]; eauto. congruence.
Qed.

Definition tone_entry (x : N * string * string) : option (N * N) :=
  match x with (t, _, f) => Some (rune_of f, t) end.
Definition ascii_entry (x : N * string * string) : option (N * N) :=
  match x with
  | (_, l, f) => if rune_of l =? rune_of "ı" then None else Some (rune_of f, rune_of l)
  end.

Lemma fold_left_ext {A B} (f g : A -> B -> A) l : (forall a b, f a b = g a b) ->
  forall a, fold_left f l a = fold_left g l a.
Proof. intros H. induction l; simpl; intros; auto. rewrite H. auto. Qed.

Lemma tone_map_In d x :
  In x (tone_map d) <-> exists y, In y (flatten d) /\ tone_entry y = Some x.
Proof.
  unfold tone_map.
  rewrite (fold_left_ext _ (fun m y => match tone_entry y with Some b => b :: m | None => m end)).
  - rewrite fold_cons_opt. simpl. tauto.
  - intros m [[t l] f]; reflexivity.
Qed.

Lemma ascii_map_In d x :
  In x (ascii_map d) <-> exists y, In y (flatten d) /\ ascii_entry y = Some x.
Proof.
  unfold ascii_map.
  rewrite (fold_left_ext _ (fun m y => match ascii_entry y with Some b => b :: m | None => m end)).
  - rewrite fold_cons_opt. simpl. tauto.
  - intros m [[t l] f]. unfold ascii_entry. destruct (rune_of l =? rune_of "ı"); reflexivity.
Qed.

Lemma flatten_In d t l f :
  In (t, l, f) (flatten d) <->
  exists rows forms, In (t, rows) d /\ In (l, forms) rows /\ In f forms.
Proof.
  unfold flatten. rewrite in_flat_map. split.
  - intros ([t' rows] & H1 & H2). apply in_flat_map in H2 as ([l' forms] & H2 & H3).
    apply in_map_iff in H3 as (f' & E & H3). simpl in *. injection E as -> -> ->. eauto.
  - intros (rows & forms & H1 & H2 & H3). exists (t, rows). split; auto.
    apply in_flat_map. exists (l, forms). split; auto. simpl.
    apply in_map_iff. eauto.
Qed.

Lemma Forall2_In_l {A B} (R : A -> B -> Prop) l l' x :
  Forall2 R l l' -> In x l -> exists y, In y l' /\ R x y.
Proof.
  induction 1; simpl; [tauto|]. intros [->|Hx]; [eauto|].
  destruct (IHForall2 Hx) as (z & ? & ?). eauto.
Qed.
Lemma Forall2_In_r {A B} (R : A -> B -> Prop) l l' y :
  Forall2 R l l' -> In y l' -> exists x, In x l /\ R x y.
Proof.
  induction 1; simpl; [tauto|]. intros [->|Hx]; [eauto|].
  destruct (IHForall2 Hx) as (z & ? & ?). eauto.
Qed.

Lemma reordered_flatten d d' : reordered d d' ->
  forall x, In x (flatten d) <-> In x (flatten d').
Proof.
  intros (dm & P & F) [[t l] f]. rewrite !flatten_In. split.
  - intros (rows & forms & H1 & H2 & H3).
    apply (Permutation_in _ P) in H1.
    destruct (Forall2_In_l _ _ _ _ F H1) as ([t' rows'] & H4 & E & Pr). simpl in *. subst t'.
    exists rows', forms. repeat split; auto. eapply Permutation_in; eauto.
  - intros (rows & forms & H1 & H2 & H3).
    destruct (Forall2_In_r _ _ _ _ F H1) as ([t' rows'] & H4 & E & Pr). simpl in *. subst t'.
    apply (Permutation_in _ (Permutation_sym P)) in H4.
    exists rows', forms. repeat split; auto.
    eapply Permutation_in; [apply Permutation_sym|]; eauto.
Qed.

Definition functionalb (l : list (N * N)) : bool :=
  forallb (fun x : N * N => forallb (fun y : N * N =>
    negb (fst x =? fst y) || (snd x =? snd y)) l) l.

Lemma functionalb_ok l : functionalb l = true -> functional l.
Proof.
  unfold functionalb. intros H k v v' H1 H2.
  rewrite forallb_forall in H. specialize (H _ H1).
  rewrite forallb_forall in H. specialize (H _ H2). simpl in H.
  rewrite N.eqb_refl in H. apply N.eqb_eq in H. exact H.
Qed.

Lemma tone_map_functional : functional (tone_map diacritic).
Proof. apply functionalb_ok. vm_compute. reflexivity. Qed.
Lemma ascii_map_functional : functional (ascii_map diacritic).
Proof. apply functionalb_ok. vm_compute. reflexivity. Qed.

Lemma tables0_eq : tables0 = build diacritic diacritic diacritic.
Proof. vm_compute. reflexivity. Qed.

(** ** Two sets of tables that answer every query alike *)
Record same_tables (a b : tables) : Prop := {
  st_tone : forall k, lookup k (tb_tone a) = lookup k (tb_tone b);
  st_ascii : forall k, lookup k (tb_ascii a) = lookup k (tb_ascii b);
  st_vowels : forall k, mem_rune k (tb_vowels a) = mem_rune k (tb_vowels b)
}.

Lemma reordered_same d1 d2 d3 :
  reordered diacritic d1 -> reordered diacritic d2 -> reordered diacritic d3 ->
  same_tables (build d1 d2 d3) tables0.
Proof.
  intros R1 R2 R3. rewrite tables0_eq. split; intros k; cbn [build tb_tone tb_ascii tb_vowels].
  - symmetry. apply lookup_set_eq; [apply tone_map_functional|].
    intros x. rewrite !tone_map_In. split; intros (y & H & E); exists y; split; auto;
      apply (reordered_flatten _ _ R1); auto.
  - symmetry. apply lookup_set_eq; [apply ascii_map_functional|].
    intros x. rewrite !ascii_map_In. split; intros (y & H & E); exists y; split; auto;
      apply (reordered_flatten _ _ R2); auto.
  - apply eq_true_iff_eq. rewrite !mem_rune_In. unfold vowel_runes.
    rewrite !in_app_iff, !in_map_iff.
    split; (intros [H|(y & E & H)]; [auto|right]; exists y; split; auto;
      apply (reordered_flatten _ _ R3); auto).
Qed.

Lemma to_ascii_loop_same a b : same_tables a b ->
  forall rs t, to_ascii_loop a t rs = to_ascii_loop b t rs.
Proof.
  intros [H1 H2 H3]. induction rs; intros t; cbn [to_ascii_loop]; auto.
  unfold tone_of, ascii_of. rewrite H1, H2, H3, !IHrs.
  destruct (lookup a0 (tb_tone b)); rewrite ?IHrs; reflexivity.
Qed.

Lemma index_any_same s l l' :
  (forall k, mem_rune k l = mem_rune k l') -> index_any s l = index_any s l'.
Proof.
  intros H. induction s using runes_ind; [reflexivity|].
  rewrite (index_any_cons s l), (index_any_cons s l') by assumption. rewrite H, IHs. reflexivity.
Qed.

Lemma to_ascii_same a b : same_tables a b -> forall s, to_ascii_with a s = to_ascii_with b s.
Proof. intros H s. unfold to_ascii_with. rewrite (to_ascii_loop_same a b); auto. Qed.

Lemma strip_same a b : same_tables a b -> forall s, strip_with a s = strip_with b s.
Proof. intros H s. unfold strip_with. rewrite (to_ascii_same a b); auto. Qed.

Lemma tone_same a b : same_tables a b -> forall s, tone_with a s = tone_with b s.
Proof. intros H s. unfold tone_with. rewrite (to_ascii_same a b); auto. Qed.

Lemma with_tone_same a b : same_tables a b ->
  forall s t, with_tone_with a s t = with_tone_with b s t.
Proof.
  intros [H1 H2 H3] s t. unfold with_tone_with.
  rewrite (index_any_same s (tb_vowels a) (tb_vowels b)) by auto.
  destruct (index_any s (tb_vowels b)); auto.
  destruct (decode_rune (sdrop n s)) as [r w]. rewrite H2. reflexivity.
Qed.

Lemma map_order_irrelevant d1 d2 d3 :
  reordered diacritic d1 -> reordered diacritic d2 -> reordered diacritic d3 ->
  forall s t,
    to_ascii_with (build d1 d2 d3) s = to_ascii s /\
    strip_with (build d1 d2 d3) s = strip s /\
    with_tone_with (build d1 d2 d3) s t = with_tone s t /\
    tone_with (build d1 d2 d3) s = tone s.
Proof.
  intros R1 R2 R3 s t. pose proof (reordered_same _ _ _ R1 R2 R3) as S.
  repeat split; [apply to_ascii_same|apply strip_same|apply with_tone_same|apply tone_same]; auto.
Qed.

(** ** The tables against the specification *)

Lemma flat_check :
  forallb (fun x : N * string * string =>
    match x with (t, l, f) =>
      String.eqb (encode_rune (rune_of f)) f && negb (rune_of f =? rune_error)
      && (127 <? rune_of f) && valid_rune (rune_of f)
    end) (flatten diacritic) = true.
Proof. vm_compute. reflexivity. Qed.

Lemma encode_toned f t l : In (t, l, f) (flatten diacritic) ->
  encode_rune (rune_of f) = f /\ rune_of f <> rune_error /\ 127 < rune_of f /\
  valid_rune (rune_of f) = true.
Proof.
  intros H. pose proof flat_check as C. rewrite forallb_forall in C.
  specialize (C _ H). simpl in C. rewrite !andb_true_iff in C.
  destruct C as [[[C1 C2] C3] C4].
  apply String.eqb_eq in C1. apply negb_true_iff, N.eqb_neq in C2.
  apply N.ltb_lt in C3. auto.
Qed.

Lemma rune_of_encode r : rune_of (encode_rune r) = clean r.
Proof.
  unfold rune_of. rewrite <- (sapp_nil_r (encode_rune r)), decode_encode_app'. reflexivity.
Qed.

Lemma toned_as_In r t : toned_as r t <-> In (r, t) (tone_map diacritic).
Proof.
  rewrite tone_map_In. split.
  - intros (rows & l & forms & H1 & H2 & H3).
    assert (H : In (t, l, encode_rune r) (flatten diacritic)) by (apply flatten_In; eauto).
    exists (t, l, encode_rune r). split; auto. simpl.
    apply encode_toned in H. rewrite rune_of_encode in *. unfold clean in *.
    destruct (valid_rune r) eqn:V; [reflexivity|]. destruct H as (_ & H & _). congruence.
  - intros ([[t' l] f] & H & E). simpl in E. injection E as <- <-.
    pose proof (encode_toned _ _ _ H) as (E & _).
    apply flatten_In in H as (rows & forms & H1 & H2 & H3).
    exists rows, l, forms. rewrite E. auto.
Qed.

Lemma tb_tone0 : tb_tone tables0 = tone_map diacritic.
Proof. rewrite tables0_eq. reflexivity. Qed.
Lemma tb_ascii0 : tb_ascii tables0 = ascii_map diacritic.
Proof. rewrite tables0_eq. reflexivity. Qed.
Lemma tb_vowels0 : tb_vowels tables0 = vowel_runes diacritic.
Proof. rewrite tables0_eq. reflexivity. Qed.

Lemma tone_lookup r t : lookup r (tb_tone tables0) = Some t <-> toned_as r t.
Proof.
  rewrite tb_tone0, toned_as_In. apply lookup_functional, tone_map_functional.
Qed.

Lemma vowel_spec r : mem_rune r (tb_vowels tables0) = true <-> vowel r.
Proof.
  rewrite mem_rune_In, tb_vowels0. unfold vowel_runes, vowel, plain_vowel, toned.
  rewrite in_app_iff, in_map_iff.
  split; (intros [H|H]; [left; exact H|right]).
  - destruct H as ([[t l] f] & E & H). exists t. apply toned_as_In, tone_map_In.
    exists (t, l, f). split; auto. simpl in *. congruence.
  - destruct H as (t & H). apply toned_as_In, tone_map_In in H as ([[t' l] f] & H & E).
    simpl in E. injection E as <- <-. exists (t', l, f). auto.
Qed.

Lemma vowel_spec_false r : mem_rune r (tb_vowels tables0) = false <-> ~ vowel r.
Proof. rewrite <- vowel_spec. destruct (mem_rune r (tb_vowels tables0)); intuition congruence. Qed.

Lemma marker_spec r : mem_rune r tone_name_runes = true <-> marker r.
Proof. apply mem_rune_In. Qed.
Lemma marker_spec_false r : mem_rune r tone_name_runes = false <-> ~ marker r.
Proof. apply mem_rune_false. Qed.

(** Everything else we need about an entry of the table. *)
Lemma entry_check :
  forallb (fun x : N * N =>
    let (r, t) := x in
    negb (t =? 0) && (t <? 128) && mem_rune t tone_name_runes && (127 <? r)
    && match lookup r (tb_ascii tables0) with
       | Some a => negb (a =? 0) && (a <? 128) && mem_rune a (runes "aeiouAEIOU")
       | None => false
       end) (tone_map diacritic) = true.
Proof. vm_compute. reflexivity. Qed.

Lemma toned_facts r t : toned_as r t ->
  t <> 0 /\ t < 128 /\ marker t /\ 127 < r /\
  lookup r (tb_ascii tables0) = Some (ascii_of tables0 r) /\
  ascii_of tables0 r <> 0 /\ ascii_of tables0 r < 128 /\
  In (ascii_of tables0 r) (runes "aeiouAEIOU").
Proof.
  intros H. apply toned_as_In in H. pose proof entry_check as C.
  rewrite forallb_forall in C. specialize (C _ H). cbv beta iota zeta in C.
  unfold ascii_of.
  destruct (lookup r (tb_ascii tables0)) as [a|]; [|rewrite andb_false_r in C; discriminate].
  rewrite !andb_true_iff, !negb_true_iff, !N.eqb_neq, !N.ltb_lt, marker_spec, mem_rune_In in C.
  tauto.
Qed.

Lemma tone_of_toned r t : toned_as r t -> tone_of tables0 r = t.
Proof. intros H. apply tone_lookup in H. unfold tone_of. rewrite H. reflexivity. Qed.

Lemma tone_of_cases r :
  (tone_of tables0 r = 0 /\ ~ toned r) \/
  (tone_of tables0 r <> 0 /\ toned_as r (tone_of tables0 r)).
Proof.
  unfold tone_of. destruct (lookup r (tb_tone tables0)) as [t|] eqn:E.
  - right. apply tone_lookup in E. split; auto. apply toned_facts in E. tauto.
  - left. split; auto. intros (t & H). apply tone_lookup in H. congruence.
Qed.

Lemma toned_ge r : toned r -> 127 < r.
Proof. intros (t & H). apply toned_facts in H. tauto. Qed.

Lemma toned_vowel r : toned r -> vowel r.
Proof. right; assumption. Qed.

Lemma idot_not_toned : ~ toned (rune_of "ı").
Proof.
  intros (t & H). apply toned_as_In in H.
  assert (G : forallb (fun x : N * N => negb (fst x =? rune_of "ı")) (tone_map diacritic) = true)
    by (vm_compute; reflexivity).
  rewrite forallb_forall in G. specialize (G _ H). simpl in G.
  discriminate.
Qed.

Lemma idot_vowel : vowel (rune_of "ı").
Proof. left. vm_compute. tauto. Qed.

Lemma marker_not_vowel r : marker r -> ~ vowel r.
Proof.
  intros H. apply vowel_spec_false.
  assert (G : forallb (fun r => negb (mem_rune r (tb_vowels tables0))) (runes "-/V?^\~") = true)
    by (vm_compute; reflexivity).
  rewrite forallb_forall in G. apply negb_true_iff, G, H.
Qed.

Lemma marker_facts r : marker r -> r < 128 /\ r <> 0 /\ r <> rune_of "q" /\ r <> rune_of "ı".
Proof.
  intros H.
  assert (G : forallb (fun r => (r <? 128) && negb (r =? 0) && negb (r =? rune_of "q")
                 && negb (r =? rune_of "ı")) (runes "-/V?^\~") = true)
    by (vm_compute; reflexivity).
  rewrite forallb_forall in G. specialize (G _ H).
  rewrite !andb_true_iff, !negb_true_iff, !N.eqb_neq, N.ltb_lt in G. tauto.
Qed.

Lemma separatorb r :
  negb (mem_rune r (tb_vowels tables0)) && negb (r =? rune_of "q") = true <-> separator r.
Proof.
  rewrite andb_true_iff, !negb_true_iff, vowel_spec_false, N.eqb_neq. reflexivity.
Qed.

Global Opaque tables0.

(** ** Shape of the loop *)
Lemma loop_nil : to_ascii_loop tables0 no_tone [] = [].
Proof. reflexivity. Qed.
Lemma loop_nil_pending t : t <> 0 -> to_ascii_loop tables0 t [] = [t].
Proof. intros H. cbn [to_ascii_loop]. unfold no_tone. destruct (N.eqb_spec t 0); congruence. Qed.
Lemma loop_idot t rs :
  to_ascii_loop tables0 t (rune_of "ı" :: rs) = rune_of "i" :: to_ascii_loop tables0 t rs.
Proof. reflexivity. Qed.
Lemma loop_sep t r rs : t <> 0 -> separator r ->
  to_ascii_loop tables0 t (r :: rs) = t :: r :: to_ascii_loop tables0 no_tone rs.
Proof.
  intros H S. cbn [to_ascii_loop].
  destruct (N.eqb_spec r (rune_of "ı")) as [->|_].
  { destruct S as [S _]. elim S. apply idot_vowel. }
  unfold no_tone. destruct (N.eqb_spec t 0); [congruence|]. cbn [negb].
  apply separatorb in S. rewrite S. reflexivity.
Qed.
Lemma loop_nosep t r rs : t <> 0 -> r <> rune_of "ı" -> ~ separator r ->
  to_ascii_loop tables0 t (r :: rs) = r :: to_ascii_loop tables0 t rs.
Proof.
  intros H I S. cbn [to_ascii_loop].
  destruct (N.eqb_spec r (rune_of "ı")) as [->|_]; [congruence|].
  unfold no_tone. destruct (N.eqb_spec t 0); [congruence|]. cbn [negb].
  destruct (negb (mem_rune r (tb_vowels tables0)) && negb (r =? rune_of "q")) eqn:E; auto.
  apply separatorb in E. contradiction.
Qed.
Lemma loop_toned r t rs : toned_as r t ->
  to_ascii_loop tables0 no_tone (r :: rs) = ascii_of tables0 r :: to_ascii_loop tables0 t rs.
Proof.
  intros H. cbn [to_ascii_loop].
  destruct (N.eqb_spec r (rune_of "ı")) as [->|_].
  { elim idot_not_toned. exists t; auto. }
  rewrite (tone_of_toned _ _ H). cbv zeta. change (negb (no_tone =? no_tone)) with false.
  cbv iota. unfold no_tone. destruct (N.eqb_spec t 0) as [->|]; [|reflexivity].
  apply toned_facts in H. tauto.
Qed.
Lemma loop_plain r rs : r <> rune_of "ı" -> ~ toned r ->
  to_ascii_loop tables0 no_tone (r :: rs) = r :: to_ascii_loop tables0 no_tone rs.
Proof.
  intros I H. cbn [to_ascii_loop].
  destruct (N.eqb_spec r (rune_of "ı")) as [->|_]; [congruence|].
  destruct (tone_of_cases r) as [[-> _]|[_ G]]; [reflexivity|].
  elim H. eexists; eauto.
Qed.

Lemma sep_dec r : separator r \/ ~ separator r.
Proof.
  destruct (negb (mem_rune r (tb_vowels tables0)) && negb (r =? rune_of "q")) eqn:E.
  - left. apply separatorb, E.
  - right. rewrite <- separatorb, E. discriminate.
Qed.
Lemma toned_dec r : (exists t, toned_as r t) \/ ~ toned r.
Proof. destruct (tone_of_cases r) as [[_ H]|[_ H]]; eauto. Qed.

(** ** C02, C03: ASCII output *)

Lemma encode_ascii r : r < 128 -> encode_rune r = String (byte r) EmptyString.
Proof.
  intros H. unfold encode_rune.
  replace (valid_rune r) with true.
  - destruct (N.ltb_spec r 128); [reflexivity|lia].
  - symmetry. apply valid_rune_spec. lia.
Qed.

Lemma list_ascii_app a b :
  list_ascii_of_string (a ++ b)%string = list_ascii_of_string a ++ list_ascii_of_string b.
Proof. induction a; simpl; congruence. Qed.

Lemma encode_bytes_high r : 128 <= r ->
  Forall (fun c => 128 <= byte_of c) (list_ascii_of_string (encode_rune r)).
Proof.
  intros H. unfold encode_rune. set (r' := if valid_rune r then r else rune_error).
  assert (V : valid_rune r' = true /\ 128 <= r').
  { unfold r'. destruct (valid_rune r) eqn:E; split; auto.
    unfold rune_error. lia. }
  clearbody r'. destruct V as [V L]. apply valid_rune_spec in V.
  cbv zeta. destruct (N.ltb_spec r' 128); [lia|].
  destruct (N.ltb_spec r' 2048); [|destruct (N.ltb_spec r' 65536)];
    cbn [list_ascii_of_string]; repeat constructor;
    rewrite byte_of_byte; lia.
Qed.

Lemma all_ascii_of_runes rs : all_ascii (of_runes rs) <-> Forall (fun r => r < 128) rs.
Proof.
  unfold all_ascii. induction rs as [|r rs IH]; simpl; [split; constructor|].
  rewrite list_ascii_app, Forall_app, IH, Forall_cons_iff.
  enough (Forall (fun c : ascii => byte_of c < 128) (list_ascii_of_string (encode_rune r))
          <-> r < 128) by tauto.
  split; intros H.
  - destruct (N.lt_ge_cases r 128) as [|G]; auto. exfalso.
    apply encode_bytes_high in G.
    pose proof (encode_rune_nonempty r) as NE.
    destruct (encode_rune r) as [|c s]; [congruence|].
    simpl in *. inversion_clear H. inversion_clear G. lia.
  - rewrite encode_ascii by auto. simpl. repeat constructor. rewrite byte_of_byte; lia.
Qed.

Lemma runes_ascii s : all_ascii s -> s = of_runes (runes s) /\ Forall (fun r => r < 128) (runes s).
Proof.
  unfold all_ascii. induction s as [|a s IH]; simpl; [intros; split; [reflexivity|constructor]|].
  intros H. inversion_clear H as [|? ? Ha Hs]. destruct (IH Hs) as [E F].
  assert (D : decode_rune (String a s) = (byte_of a, 1%nat)).
  { cbn [decode_rune]. destruct (N.ltb_spec (byte_of a) 128); [reflexivity|lia]. }
  rewrite runes_cons by congruence. rewrite D. cbn [fst snd sdrop of_runes].
  rewrite encode_ascii, byte_byte_of by auto. simpl. split; [congruence|].
  constructor; auto.
Qed.

Lemma loop_ascii rs : Forall (fun r => r < 128) rs -> to_ascii_loop tables0 no_tone rs = rs.
Proof.
  induction 1 as [|r rs Hr _ IH]; [reflexivity|].
  rewrite loop_plain.
  - congruence.
  - intros ->. vm_compute in Hr. discriminate.
  - intros T. apply toned_ge in T. lia.
Qed.

Lemma to_ascii_id s : all_ascii s -> to_ascii s = s.
Proof.
  intros H. destruct (runes_ascii s H) as [E F].
  unfold to_ascii, to_ascii_with. rewrite loop_ascii by auto. auto.
Qed.

(** Pending version of [separated]: no toned vowel before the next separator. *)
Definition clear_ahead (rs : list N) : Prop :=
  forall mid r2 post, rs = mid ++ r2 :: post -> toned r2 -> exists x, In x mid /\ separator x.

Lemma separated_nil : separated [].
Proof. intros pre r1 mid r2 post E. destruct pre; discriminate. Qed.
Lemma clear_nil : clear_ahead [].
Proof. intros mid r2 post E. destruct mid; discriminate. Qed.

Lemma separated_cons r rs :
  separated (r :: rs) <-> separated rs /\ (toned r -> clear_ahead rs).
Proof.
  split.
  - intros H. split.
    + intros pre r1 mid r2 post E. apply (H (r :: pre) r1 mid r2 post). simpl. congruence.
    + intros T mid r2 post E T2. apply (H [] r mid r2 post); auto. simpl. congruence.
  - intros [H1 H2] pre r1 mid r2 post E T1 T2. destruct pre as [|p pre].
    + injection E as <- ->. eapply H2; eauto.
    + injection E as <- ->. eapply H1; eauto.
Qed.

Lemma clear_cons r rs :
  clear_ahead (r :: rs) <-> (separator r \/ (~ toned r /\ clear_ahead rs)).
Proof.
  split.
  - intros H. destruct (sep_dec r) as [S|S]; [auto|right]. split.
    + intros T. destruct (H [] r rs eq_refl T) as (x & [] & _).
    + intros mid r2 post E T. destruct (H (r :: mid) r2 post) as (x & [->|Hx] & Sx);
        [simpl; congruence|auto| |]; [contradiction|eauto].
  - intros [S|[T H]] mid r2 post E T2.
    + destruct mid as [|m mid].
      * injection E as <- <-. destruct S as [S _]. elim S. apply toned_vowel, T2.
      * injection E as <- ->. exists r. simpl; auto.
    + destruct mid as [|m mid]; [injection E as <- <-; contradiction|].
      injection E as <- ->. destruct (H _ _ _ eq_refl T2) as (x & Hx & Sx).
      exists x. simpl; auto.
Qed.

Lemma sep_not_toned r : separator r -> ~ toned r.
Proof. intros [S _] T. apply S, toned_vowel, T. Qed.

Lemma loop_ascii_iff rs : Forall toaq_rune rs ->
  (Forall (fun r => r < 128) (to_ascii_loop tables0 no_tone rs) <-> separated rs) /\
  (forall t, t <> 0 -> t < 128 ->
   (Forall (fun r => r < 128) (to_ascii_loop tables0 t rs) <-> separated rs /\ clear_ahead rs)).
Proof.
  induction 1 as [|r rs Hr _ [IH1 IH2]].
  - split.
    + rewrite loop_nil. split; [intros; apply separated_nil|constructor].
    + intros t H1 H2. rewrite loop_nil_pending by auto.
      split; [intros; split; [apply separated_nil|apply clear_nil]|repeat constructor; auto].
  - setoid_rewrite separated_cons. setoid_rewrite clear_cons.
    destruct (N.eq_dec r (rune_of "ı")) as [->|NI].
    { assert (rune_of "i" < 128) by (vm_compute; reflexivity).
      pose proof idot_not_toned. pose proof idot_vowel.
      split; intros; rewrite loop_idot, Forall_cons_iff; [rewrite IH1|rewrite IH2 by auto];
        unfold separator; tauto. }
    split.
    + destruct (toned_dec r) as [[t T]|NT].
      * rewrite (loop_toned _ _ _ T), Forall_cons_iff.
        destruct (toned_facts _ _ T) as (F1 & F2 & _ & _ & _ & _ & F3 & _).
        rewrite IH2 by assumption.
        assert (toned r) by (eexists; eauto). tauto.
      * rewrite loop_plain, Forall_cons_iff, IH1 by auto.
        destruct Hr as [Hr|[Hr|Hr]]; try contradiction. tauto.
    + intros t H1 H2. destruct (sep_dec r) as [S|S].
      * rewrite loop_sep, !Forall_cons_iff, IH1 by auto.
        pose proof (sep_not_toned _ S).
        destruct Hr as [Hr|[Hr|Hr]]; try contradiction. tauto.
      * rewrite loop_nosep, Forall_cons_iff, IH2 by auto.
        destruct Hr as [Hr|[Hr|Hr]]; try contradiction.
        -- assert (~ toned r) by (intros T; apply toned_ge in T; lia). tauto.
        -- pose proof (toned_ge _ Hr). split; [intros [G _]; lia|tauto].
Qed.

Lemma to_ascii_ascii_iff s : Forall toaq_rune (runes s) ->
  (all_ascii (to_ascii s) <-> separated (runes s)).
Proof.
  intros H. unfold to_ascii, to_ascii_with. rewrite all_ascii_of_runes.
  apply loop_ascii_iff, H.
Qed.

(** ** C04: Strip *)

Definition marker_byte (c : ascii) : bool :=
  match find (Ascii.eqb c) (list_ascii_of_string "-/V?^\~") with Some _ => true | None => false end.

Lemma marker_byte_spec c : marker_byte c = mem_rune (byte_of c) tone_name_runes.
Proof. destruct c as [[] [] [] [] [] [] [] []]; vm_compute; reflexivity. Qed.

Lemma encode_marker_filter r :
  filter (fun c => negb (marker_byte c)) (list_ascii_of_string (encode_rune r)) =
  if mem_rune r tone_name_runes then [] else list_ascii_of_string (encode_rune r).
Proof.
  destruct (N.lt_ge_cases r 128) as [L|G].
  - rewrite encode_ascii by auto. cbn [list_ascii_of_string filter].
    rewrite marker_byte_spec, byte_of_byte by lia.
    destruct (mem_rune r tone_name_runes); reflexivity.
  - replace (mem_rune r tone_name_runes) with false.
    + apply encode_bytes_high in G.
      induction G as [|c l Hc _ IH]; simpl; auto.
      rewrite marker_byte_spec. replace (mem_rune (byte_of c) tone_name_runes) with false.
      * simpl. congruence.
      * symmetry. apply marker_spec_false. intros M. apply marker_facts in M. lia.
    + symmetry. apply marker_spec_false. intros M. apply marker_facts in M. lia.
Qed.

Lemma encode_clean r : encode_rune (clean r) = encode_rune r.
Proof.
  unfold clean. destruct (valid_rune r) eqn:V; auto.
  symmetry. apply encode_rune_invalid, V.
Qed.
Lemma of_runes_clean rs : of_runes (map clean rs) = of_runes rs.
Proof. induction rs; simpl; auto. rewrite encode_clean. congruence. Qed.

Lemma filter_app' {A} (f : A -> bool) a b : filter f (a ++ b) = filter f a ++ filter f b.
Proof. induction a; simpl; auto. destruct (f a); simpl; congruence. Qed.

Lemma strip_bytes s :
  list_ascii_of_string (strip s) =
  filter (fun c => negb (marker_byte c)) (list_ascii_of_string (to_ascii s)).
Proof.
  unfold strip, strip_with. fold (to_ascii s).
  assert (E : to_ascii s = of_runes (runes (to_ascii s))).
  { unfold to_ascii, to_ascii_with. rewrite runes_of_runes, of_runes_clean. reflexivity. }
  rewrite E at 2. generalize (runes (to_ascii s)) as rs.
  induction rs as [|r rs IH]; [reflexivity|].
  cbn [of_runes]. rewrite list_ascii_app, filter_app', encode_marker_filter.
  cbn [filter]. destruct (mem_rune r tone_name_runes); cbn [negb]; auto.
  cbn [of_runes]. rewrite list_ascii_app, IH. reflexivity.
Qed.

Lemma marker_byte_In c : marker_byte c = true <-> In c (list_ascii_of_string "-/V?^\~").
Proof.
  unfold marker_byte. destruct (find _ _) as [x|] eqn:E.
  - apply find_some in E as [H1 H2]. apply Ascii.eqb_eq in H2 as ->. tauto.
  - split; [discriminate|]. intros H.
    apply (find_none _ _ E) in H. rewrite Ascii.eqb_refl in H. discriminate.
Qed.

Lemma strip_no_marker s c :
  In c (list_ascii_of_string (strip s)) -> ~ In c (list_ascii_of_string "-/V?^\~").
Proof.
  rewrite strip_bytes. intros H. apply filter_In in H as [_ H].
  rewrite <- marker_byte_In. destruct (marker_byte c); [discriminate|congruence].
Qed.

(** ** C08: what Tone computes *)

Lemma short_vowel r : In r (runes "aeiouAEIOU") -> plain_vowel r.
Proof.
  intros H.
  assert (G : forallb (fun r => mem_rune r (runes "aeiıouAEIOU")) (runes "aeiouAEIOU") = true)
    by (vm_compute; reflexivity).
  rewrite forallb_forall in G. apply mem_rune_In, G, H.
Qed.

Lemma loop_first_marker rs :
  (forall t, t <> 0 -> marker t ->
     find (fun r => mem_rune r tone_name_runes) (to_ascii_loop tables0 t rs) = Some t) /\
  find (fun r => mem_rune r tone_name_runes) (to_ascii_loop tables0 no_tone rs) =
  match find (fun r => mem_rune r tone_name_runes || negb (tone_of tables0 r =? 0)) rs with
  | Some r => Some (if mem_rune r tone_name_runes then r else tone_of tables0 r)
  | None => None
  end.
Proof.
  assert (LI : mem_rune (rune_of "i") tone_name_runes = false) by (vm_compute; reflexivity).
  assert (LJ : mem_rune (rune_of "ı") tone_name_runes = false) by (vm_compute; reflexivity).
  induction rs as [|r rs [IH1 IH2]].
  - split; [|reflexivity]. intros t H M. rewrite loop_nil_pending by auto.
    cbn [find]. apply marker_spec in M. rewrite M. reflexivity.
  - destruct (N.eq_dec r (rune_of "ı")) as [->|NI].
    { split; intros; rewrite loop_idot; cbn [find]; rewrite LI; [auto|].
      rewrite LJ. replace (tone_of tables0 (rune_of "ı")) with 0; [exact IH2|].
      destruct (tone_of_cases (rune_of "ı")) as [[-> _]|[_ H]]; [reflexivity|].
      elim idot_not_toned. eexists; eauto. }
    split.
    + intros t H M. destruct (sep_dec r) as [S|S].
      * rewrite loop_sep by auto. cbn [find]. apply marker_spec in M. rewrite M. reflexivity.
      * rewrite loop_nosep by auto. cbn [find].
        replace (mem_rune r tone_name_runes) with false; auto.
        symmetry. apply marker_spec_false. intros Mr. apply S.
        split; [apply marker_not_vowel, Mr|apply marker_facts in Mr; tauto].
    + cbn [find]. destruct (tone_of_cases r) as [[E T]|[E T]].
      * rewrite loop_plain by auto. cbn [find]. rewrite E.
        rewrite N.eqb_refl. cbn [negb]. rewrite orb_false_r.
        destruct (mem_rune r tone_name_runes) eqn:M; auto. rewrite M. reflexivity.
      * rewrite (loop_toned _ _ _ T). cbn [find].
        destruct (toned_facts _ _ T) as (_ & _ & F1 & F2 & _ & _ & _ & F).
        destruct (N.eqb_spec (tone_of tables0 r) 0); [contradiction|].
        rewrite orb_true_r.
        replace (mem_rune (ascii_of tables0 r) tone_name_runes) with false.
        { rewrite (IH1 _ E F1).
          replace (mem_rune r tone_name_runes) with false; auto.
          symmetry. apply marker_spec_false. intros M. apply marker_facts in M. lia. }
        symmetry. apply marker_spec_false. intros M. apply (marker_not_vowel _ M).
        left. apply short_vowel, F.
Qed.

Lemma decode_low c q : byte_of c < 128 -> fst (decode_rune (String c q)) = byte_of c.
Proof.
  intros H. cbn [decode_rune]. destruct (N.ltb_spec (byte_of c) 128); [reflexivity|lia].
Qed.

Lemma decode_high c q : 128 <= byte_of c -> 128 <= fst (decode_rune (String c q)).
Proof.
  intros H. pose proof (decode_inv (String c q)) as I.
  destruct (decode_rune (String c q)) as [r w]. cbn [fst snd] in *.
  destruct (N.eq_dec r rune_error) as [->|NE]; [unfold rune_error; lia|].
  specialize (I ltac:(congruence) NE).
  destruct (N.lt_ge_cases r 128) as [L|]; [|assumption].
  rewrite encode_ascii in I by assumption. injection I as I _.
  apply (f_equal byte_of) in I. rewrite byte_of_byte in I; lia.
Qed.

Lemma index_any_find s cs : ~ In rune_error cs -> (forall c, In c cs -> c < 128) ->
  match index_any s cs with
  | Some i => exists c rest, sdrop i s = String c rest /\ find (fun r => mem_rune r cs) (runes s) = Some (byte_of c)
  | None => find (fun r => mem_rune r cs) (runes s) = None
  end.
Proof.
  intros NE LT. destruct (index_any s cs) as [i|] eqn:E.
  - apply index_any_some in E as (p & q & -> & L & NQ & S & M & F); auto.
    rewrite <- L, sdrop_app. destruct q as [|c q]; [congruence|].
    exists c, q. split; auto. rewrite runes_app_start by auto.
    assert (D : fst (decode_rune (String c q)) = byte_of c).
    { apply mem_rune_In, LT in M.
      destruct (N.lt_ge_cases (byte_of c) 128) as [L1|L1]; [apply decode_low, L1|].
      pose proof (decode_high c q L1). lia. }
    rewrite (runes_cons (String c q)) by congruence. rewrite D in *.
    clear -F M. induction F as [|x l Hx _ IH]; cbn [app find].
    + rewrite M. reflexivity.
    + rewrite Hx. exact IH.
  - apply index_any_none in E. induction E as [|x l Hx _ IH]; cbn [find]; auto.
    rewrite Hx. exact IH.
Qed.

Definition marked (r : N) : bool := mem_rune r tone_name_runes || negb (tone_of tables0 r =? 0).

Lemma tone_find s :
  tone s = match find marked (runes s) with
           | Some r => if mem_rune r tone_name_runes then r else tone_of tables0 r
           | None => 0
           end.
Proof.
  unfold tone, tone_with. fold (to_ascii s).
  pose proof (index_any_find (to_ascii s) tone_name_runes) as H.
  assert (G : find (fun r => mem_rune r tone_name_runes) (runes (to_ascii s)) =
    find (fun r => mem_rune r tone_name_runes) (to_ascii_loop tables0 no_tone (runes s))).
  { unfold to_ascii, to_ascii_with. rewrite runes_of_runes.
    generalize (to_ascii_loop tables0 no_tone (runes s)) as l.
    induction l as [|r l IH]; cbn [map find]; auto. rewrite IH.
    unfold clean. destruct (valid_rune r) eqn:V; auto.
    replace (mem_rune rune_error tone_name_runes) with false by (vm_compute; reflexivity).
    replace (mem_rune r tone_name_runes) with false; auto.
    symmetry. apply marker_spec_false. intros M. apply marker_facts in M.
    assert (valid_rune r = true) by (apply valid_rune_spec; lia). congruence. }
  rewrite G, (proj2 (loop_first_marker (runes s))) in H. clear G.
  unfold marked. specialize (H ltac:(vm_compute; intuition discriminate)).
  specialize (H (fun c Hc => proj1 (marker_facts c Hc))).
  destruct (find _ (runes s)) as [r|].
  - destruct (index_any (to_ascii s) tone_name_runes) as [i|]; [|discriminate].
    destruct H as (c & rest & -> & H). congruence.
  - destruct (index_any (to_ascii s) tone_name_runes) as [i|]; [|reflexivity].
    destruct H as (c & rest & -> & H). discriminate.
Qed.

Lemma tone_first_marked s :
  (tone s = 0 /\ forall r, In r (runes s) -> ~ marker r /\ ~ toned r) \/
  (exists pre r post, runes s = pre ++ r :: post /\
     (forall x, In x pre -> ~ marker x /\ ~ toned x) /\
     ((marker r /\ tone s = r) \/ toned_as r (tone s))).
Proof.
  rewrite tone_find.
  assert (NM : forall x, marked x = false -> ~ marker x /\ ~ toned x).
  { intros x. unfold marked. rewrite orb_false_iff, negb_false_iff, N.eqb_eq, marker_spec_false.
    destruct (tone_of_cases x); tauto. }
  induction (runes s) as [|r rs IH].
  - left. split; [reflexivity|intros r []].
  - cbn [find]. destruct (marked r) eqn:M.
    + right. exists [], r, rs. split; auto. split; [intros x []|].
      unfold marked in M. destruct (mem_rune r tone_name_runes) eqn:Mr.
      * left. split; auto. apply marker_spec, Mr.
      * right. simpl in M. apply negb_true_iff, N.eqb_neq in M.
        destruct (tone_of_cases r); tauto.
    + destruct IH as [[E H]|(pre & r' & post & E & H1 & H2)].
      * left. split; auto. intros x [<-|Hx]; auto.
      * right. exists (r :: pre), r', post. split; [simpl; congruence|]. split; auto.
        intros x [<-|Hx]; auto.
Qed.

(** ** C05-C07: WithTone *)

(** The replacement chosen for vowel [r] and tone [t]. *)
Definition new_vowel (r t : N) : res string :=
  let R0 := match lookup r (tb_ascii tables0) with
            | Some a => encode_rune a
            | None => encode_rune r
            end in
  let R1 := if t =? no_tone then Ok R0
            else match lookup t diacritic with
                 | None => Panic PRuntime
                 | Some rows => match slookup R0 rows with
                                | Some (f :: _) => Ok f
                                | _ => Panic PRuntime
                                end
                 end in
  bind R1 (fun R1 => Ok (if String.eqb R1 "i" then "ı" else R1)).

(** Finite facts about all vowels and all tones. *)
Definition all_tones : list N := 0 :: runes "-/V?^\~".

Definition new_ok (r t : N) : bool :=
  match new_vowel r t with
  | Ok s =>
    let r' := rune_of s in
    String.eqb s (encode_rune r') && mem_rune r' (vowel_runes diacritic)
    && (if t =? 0 then true else match lookup r' (tone_map diacritic) with Some t' => t' =? t | None => false end)
    && forallb (fun t2 =>
         match new_vowel r' t2, new_vowel r t2 with
         | Ok a, Ok b => String.eqb a b
         | _, _ => false
         end) all_tones
  | _ => false
  end.

Local Transparent tables0.
Lemma new_vowel_check :
  forallb (fun r => forallb (new_ok r) all_tones) (vowel_runes diacritic) = true.
Proof. vm_compute. reflexivity. Qed.
Global Opaque tables0.

Lemma vowel_In r : vowel r <-> In r (vowel_runes diacritic).
Proof. rewrite <- vowel_spec, tb_vowels0. apply mem_rune_In. Qed.

Definition known_tone (t : N) : Prop := t = 0 \/ marker t.

Lemma known_In t : known_tone t <-> In t all_tones.
Proof. unfold known_tone, marker, all_tones. cbn [In]. intuition. Qed.

Lemma new_vowel_known r t : vowel r -> known_tone t ->
  exists r', new_vowel r t = Ok (encode_rune r') /\ vowel r' /\ r' <> rune_error /\ valid_rune r' = true /\
    (t <> 0 -> toned_as r' t) /\
    (forall t2, known_tone t2 -> new_vowel r' t2 = new_vowel r t2).
Proof.
  intros V K. apply vowel_In in V. apply known_In in K.
  pose proof new_vowel_check as C. rewrite forallb_forall in C. specialize (C _ V).
  rewrite forallb_forall in C. specialize (C _ K). unfold new_ok in C.
  destruct (new_vowel r t) as [s| |]; try discriminate. cbv zeta in C.
  rewrite !andb_true_iff in C. destruct C as [[[C1 C2] C3] C4].
  exists (rune_of s). apply String.eqb_eq in C1. apply mem_rune_In in C2.
  split; [congruence|]. split; [apply vowel_In, C2|].
  assert (G : forallb (fun r => negb (r =? rune_error) && valid_rune r) (vowel_runes diacritic) = true)
    by (vm_compute; reflexivity).
  rewrite forallb_forall in G. specialize (G _ C2).
  rewrite andb_true_iff, negb_true_iff, N.eqb_neq in G.
  split; [tauto|]. split; [tauto|]. split.
  - intros NT. apply N.eqb_neq in NT. rewrite NT in C3.
    destruct (lookup (rune_of s) (tone_map diacritic)) as [t'|] eqn:L; [|discriminate].
    apply N.eqb_eq in C3 as ->. apply toned_as_In, lookup_In, L.
  - intros t2 K2. apply known_In in K2. rewrite forallb_forall in C4. specialize (C4 _ K2).
    destruct (new_vowel (rune_of s) t2), (new_vowel r t2); try discriminate.
    apply String.eqb_eq in C4. congruence.
Qed.

Lemma lookup_unknown t : ~ known_tone t -> lookup t diacritic = None.
Proof.
  intros K. destruct (lookup t diacritic) eqn:E; auto. elim K. right.
  apply lookup_In in E. clear K. unfold marker.
  assert (G : In t (map fst diacritic)) by (apply in_map_iff; exists (t, l); auto).
  assert (C : forallb (fun r => mem_rune r (runes "-/V?^\~")) (map fst diacritic) = true)
    by (vm_compute; reflexivity).
  rewrite forallb_forall in C. apply mem_rune_In, C, G.
Qed.

Lemma new_vowel_unknown r t : ~ known_tone t -> new_vowel r t = Panic PRuntime.
Proof.
  intros K. unfold new_vowel. rewrite (lookup_unknown t) by auto.
  destruct (N.eqb_spec t no_tone) as [->|]; [|reflexivity].
  elim K. left. reflexivity.
Qed.

Lemma vowels_no_error : ~ In rune_error (tb_vowels tables0).
Proof.
  rewrite tb_vowels0, <- mem_rune_In.
  replace (mem_rune rune_error (vowel_runes diacritic)) with false by (vm_compute; reflexivity).
  discriminate.
Qed.

(** Splitting a string at its first vowel. *)
Lemma first_vowel_split s :
  (index_any s (tb_vowels tables0) = None /\ Forall (fun r => ~ vowel r) (runes s)) \/
  (exists p v q, s = (p ++ encode_rune v ++ q)%string /\ vowel v /\ valid_rune v = true /\
     Forall (fun r => ~ vowel r) (runes p)).
Proof.
  destruct (index_any s (tb_vowels tables0)) as [i|] eqn:E.
  - right. apply index_any_some in E as (p & q & -> & L & NQ & S & M & F); [|apply vowels_no_error].
    assert (NE : fst (decode_rune q) <> rune_error).
    { intros E. rewrite E in M. apply mem_rune_In in M. exact (vowels_no_error M). }
    exists p, (fst (decode_rune q)), (sdrop (snd (decode_rune q)) q).
    rewrite <- decode_inv by auto. split; auto. split; [apply vowel_spec, M|].
    split; [apply decode_valid|].
    eapply Forall_impl; [|exact F]. intros r Hr. apply vowel_spec_false, Hr.
  - left. split; auto. apply index_any_none in E.
    eapply Forall_impl; [|exact E]. intros r Hr. apply vowel_spec_false, Hr.
Qed.

Lemma with_tone_at p v q t : vowel v -> valid_rune v = true -> Forall (fun r => ~ vowel r) (runes p) ->
  with_tone (p ++ encode_rune v ++ q) t =
  bind (new_vowel v t) (fun R => Ok (p ++ R ++ q)%string).
Proof.
  intros V VV F. unfold with_tone, with_tone_with.
  rewrite (index_any_app p (encode_rune v ++ q)).
  - rewrite sdrop_app, stake_app, decode_encode_app' , clean_valid by auto.
    rewrite sdrop_app. unfold new_vowel.
    destruct (if t =? no_tone then _ else _); reflexivity.
  - eapply Forall_impl; [|exact F]. intros r Hr. apply vowel_spec_false, Hr.
  - apply rune_start_encode.
  - apply app_nonempty_l, encode_rune_nonempty.
  - rewrite decode_encode_app', clean_valid by auto. apply vowel_spec, V.
Qed.

Lemma with_tone_none s t : Forall (fun r => ~ vowel r) (runes s) -> with_tone s t = Ok s.
Proof.
  intros F. destruct (first_vowel_split s) as [[E _]|(p & v & q & -> & V & VV & _)].
  - unfold with_tone, with_tone_with. rewrite E. reflexivity.
  - rewrite runes_app_start in F by apply rune_start_encode.
    rewrite runes_encode_app, clean_valid in F by auto.
    apply Forall_app in F as [_ F]. inversion_clear F. contradiction.
Qed.

Lemma known_dec t : {known_tone t} + {~ known_tone t}.
Proof.
  destruct (mem_rune t all_tones) eqn:E.
  - left. apply known_In, mem_rune_In, E.
  - right. rewrite known_In. apply mem_rune_false, E.
Defined.

Lemma with_tone_panic_iff s t :
  with_tone s t = Panic PRuntime <->
  (exists r, In r (runes s) /\ vowel r) /\ t <> no_tone /\ ~ marker t.
Proof.
  destruct (first_vowel_split s) as [[_ F]|(p & v & q & -> & V & VV & F)].
  - rewrite with_tone_none by auto. split; [discriminate|].
    intros [(r & H1 & H2) _]. rewrite Forall_forall in F. elim (F r); auto.
  - rewrite with_tone_at by auto.
    assert (HV : exists r, In r (runes (p ++ encode_rune v ++ q)) /\ vowel r).
    { exists v. split; auto. rewrite runes_app_start by apply rune_start_encode.
      rewrite runes_encode_app, clean_valid by auto. apply in_or_app. simpl. auto. }
    destruct (known_dec t) as [K|K].
    + destruct (new_vowel_known v t V K) as (r' & -> & _). simpl.
      split; [discriminate|]. unfold known_tone in K. unfold no_tone. tauto.
    + rewrite new_vowel_unknown by auto. simpl. split; auto. intros _.
      split; auto. unfold known_tone in K. unfold no_tone. tauto.
Qed.

Lemma with_tone_total s t : known_tone t -> exists s', with_tone s t = Ok s'.
Proof.
  intros K. destruct (first_vowel_split s) as [[_ F]|(p & v & q & -> & V & VV & F)].
  - rewrite with_tone_none by auto. eauto.
  - rewrite with_tone_at by auto. destruct (new_vowel_known v t V K) as (r' & -> & _).
    simpl. eauto.
Qed.

Lemma with_tone_never_nofuel s t : with_tone s t <> NoFuel.
Proof.
  destruct (known_dec t) as [K|K].
  - destruct (with_tone_total s t K) as (s' & ->). discriminate.
  - destruct (first_vowel_split s) as [[_ F]|(p & v & q & -> & V & VV & F)].
    + rewrite with_tone_none by auto. discriminate.
    + rewrite with_tone_at by auto. rewrite new_vowel_unknown by auto. discriminate.
Qed.

Lemma with_tone_change s t s' : with_tone s t = Ok s' ->
  (Forall (fun r => ~ vowel r) (runes s) /\ s' = s) \/
  (exists p v v' q,
     s = (p ++ encode_rune v ++ q)%string /\ s' = (p ++ encode_rune v' ++ q)%string /\
     vowel v /\ vowel v' /\ (t <> 0 -> toned_as v' t) /\ Forall (fun r => ~ vowel r) (runes p)).
Proof.
  intros H. destruct (first_vowel_split s) as [[_ F]|(p & v & q & -> & V & VV & F)].
  - left. split; auto. rewrite with_tone_none in H by auto. congruence.
  - right. rewrite with_tone_at in H by auto. destruct (known_dec t) as [K|K].
    + destruct (new_vowel_known v t V K) as (r' & E & V' & _ & _ & T & _).
      rewrite E in H. injection H as <-. exists p, v, r', q. repeat split; auto.
    + rewrite new_vowel_unknown in H by auto. discriminate.
Qed.

Lemma with_tone_last_wins s t1 t2 s1 : with_tone s t1 = Ok s1 ->
  with_tone s1 t2 = with_tone s t2.
Proof.
  intros H. destruct (first_vowel_split s) as [[_ F]|(p & v & q & -> & V & VV & F)].
  - rewrite with_tone_none in H by auto. congruence.
  - rewrite with_tone_at in * by auto. destruct (known_dec t1) as [K|K].
    + destruct (new_vowel_known v t1 V K) as (r' & E & V' & _ & VV' & _ & T).
      rewrite E in H. injection H as <-. rewrite with_tone_at by auto.
      destruct (known_dec t2) as [K2|K2]; [rewrite T by auto; reflexivity|].
      rewrite !new_vowel_unknown by auto. reflexivity.
    + rewrite new_vowel_unknown in H by auto. discriminate.
Qed.

Lemma tone_with_tone s t pre v post :
  runes s = pre ++ v :: post -> vowel v ->
  Forall (fun r => ~ vowel r /\ ~ marker r) pre ->
  marker t ->
  exists s', with_tone s t = Ok s' /\ tone s' = t.
Proof.
  intros R V F M. destruct (first_vowel_split s) as [[_ G]|(p & v' & q & -> & V' & VV & G)].
  - rewrite R in G. apply Forall_app in G as [_ G]. inversion_clear G. contradiction.
  - rewrite with_tone_at by auto.
    destruct (new_vowel_known v' t V' (or_intror M)) as (r' & -> & V2 & _ & VV2 & T & _).
    cbn [bind]. eexists; split; [reflexivity|].
    assert (T' : toned_as r' t) by (apply T; apply marker_facts in M; tauto).
    rewrite tone_find. rewrite runes_app_start by apply rune_start_encode.
    rewrite runes_encode_app, clean_valid by auto.
    rewrite runes_app_start in R by apply rune_start_encode.
    rewrite runes_encode_app, clean_valid in R by auto.
    assert (E : runes p = pre).
    { clear - R G F V V'. revert pre F R. induction G as [|x l Hx _ IH]; intros pre F R.
      - destruct F as [|y pre' [Hy _] _]; auto. injection R as -> _. contradiction.
      - destruct F as [|y pre' [Hy _] F]; injection R as -> R; [contradiction|].
        f_equal. apply IH; auto. }
    rewrite E. clear - F T' V2. induction F as [|x l [Hx1 Hx2] _ IH].
    + cbn [app find]. unfold marked. rewrite (tone_of_toned _ _ T').
      destruct (toned_facts _ _ T') as (NT & _). destruct (N.eqb_spec t 0); [contradiction|].
      rewrite orb_true_r.
      replace (mem_rune r' tone_name_runes) with false; [apply tone_of_toned, T'|].
      symmetry. apply marker_spec_false. intros M. apply (marker_not_vowel _ M V2).
    + cbn [app find]. replace (marked x) with false; auto.
      symmetry. unfold marked. rewrite orb_false_iff. split; [apply marker_spec_false, Hx2|].
      destruct (tone_of_cases x) as [[-> _]|[_ H]]; auto.
      elim Hx1. right. eexists; eauto.
Qed.

(** ** Witnesses *)

Lemma toned_as_lookup r t : lookup r (tone_map diacritic) = Some t -> toned_as r t.
Proof. intros H. apply toned_as_In, lookup_In, H. Qed.

Lemma to_ascii_not_ascii :
  exists s, Forall toaq_rune (runes s) /\ ~ all_ascii (to_ascii s).
Proof.
  exists "áá".
  assert (T : toned 225) by (exists 47; apply toned_as_lookup; vm_compute; reflexivity).
  assert (E : runes "áá" = [225; 225]) by (vm_compute; reflexivity).
  assert (F : Forall toaq_rune (runes "áá")).
  { rewrite E. constructor; [right; right; exact T|constructor; [right; right; exact T|constructor]]. }
  split; [exact F|]. rewrite to_ascii_ascii_iff by exact F. rewrite E. intros S.
  destruct (S [] 225 [] 225 []) as (x & [] & _); auto.
Qed.

Lemma strip_exact s :
  list_ascii_of_string (strip s) =
    filter (fun c => if in_dec ascii_dec c (list_ascii_of_string "-/V?^\~") then false else true)
      (list_ascii_of_string (to_ascii s)).
Proof.
  rewrite strip_bytes. apply filter_ext. intros c.
  destruct (in_dec ascii_dec c _) as [H|H]; rewrite <- marker_byte_In in H;
    destruct (marker_byte c); try reflexivity; exfalso; congruence.
Qed.

Lemma not_vowel_check r : mem_rune r (vowel_runes diacritic) = false -> ~ vowel r.
Proof. intros H. rewrite vowel_In. apply mem_rune_false, H. Qed.

Lemma tone_skips_untoned :
  exists c1 v1 c2 v2 t,
    separator c1 /\ plain_vowel v1 /\ separator c2 /\ toned_as v2 t /\
    tone (of_runes [c1; v1; c2; v2]) = t /\ t <> no_tone.
Proof.
  assert (D : separator (rune_of "d")).
  { split; [apply not_vowel_check; vm_compute; reflexivity|vm_compute; discriminate]. }
  exists (rune_of "d"), (rune_of "o"), (rune_of "d"), (rune_of "ó"), (rune_of "/").
  split; [exact D|]. split; [apply mem_rune_In; vm_compute; reflexivity|].
  split; [exact D|]. split; [apply toned_as_lookup; vm_compute; reflexivity|].
  split; [vm_compute; reflexivity|vm_compute; discriminate].
Qed.
