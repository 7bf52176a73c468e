(** The parser does not see the case of letters. *)

From Coq Require Import String Ascii NArith ZArith PArith List Bool Lia Arith FMapPositive.
From Verif Require Import Base Utf8 Utf8Facts PegSyntax Grammar Peg PegToaq PegFacts Loc Parser CaseFold.
Import ListNotations.
Open Scope nat_scope.

(** ** Bytes and runes *)

Lemma small_byte_hi a : (byte_of a <? 0x80)%N = false -> small_byte a = a.
Proof. destruct a as [[] [] [] [] [] [] [] []]; vm_compute; intro H; try discriminate H; reflexivity. Qed.
Lemma small_byte_lo a : (byte_of a <? 0x80)%N = true -> byte_of (small_byte a) = small_rune (byte_of a) /\ (byte_of (small_byte a) <? 0x80)%N = true.
Proof. destruct a as [[] [] [] [] [] [] [] []]; vm_compute; intro H; try discriminate H; split; reflexivity. Qed.
Lemma small_cont a : is_cont (byte_of (small_byte a)) = is_cont (byte_of a).
Proof. destruct a as [[] [] [] [] [] [] [] []]; vm_compute; reflexivity. Qed.
Lemma cont_small a : is_cont (byte_of a) = true -> small_byte a = a.
Proof. destruct a as [[] [] [] [] [] [] [] []]; vm_compute; intro H; try discriminate H; reflexivity. Qed.
Lemma second_cont b0 b1 : second_ok b0 b1 = true -> is_cont b1 = true.
Proof.
  unfold second_ok, is_cont, in_range. intros H.
  repeat match type of H with (if ?c then _ else _) = true => destruct c end; apply andb_prop in H; destruct H as [A B];
    apply N.leb_le in A, B; apply andb_true_intro; split; apply N.leb_le; lia.
Qed.
Lemma second_small b0 a : second_ok b0 (byte_of (small_byte a)) = second_ok b0 (byte_of a).
Proof.
  destruct (is_cont (byte_of a)) eqn:C; [rewrite (cont_small a C); reflexivity|].
  destruct (second_ok b0 (byte_of a)) eqn:E; [apply second_cont in E; congruence|].
  destruct (second_ok b0 (byte_of (small_byte a))) eqn:F; [apply second_cont in F; rewrite small_cont in F; congruence|reflexivity].
Qed.
Lemma small_rune_hi r : (r <? 0x80)%N = false -> small_rune r = r.
Proof.
  intros H. apply N.ltb_ge in H. unfold small_rune. destruct (N.leb_spec r 90); [lia|]. rewrite andb_false_r. reflexivity.
Qed.

Lemma decode_small s : decode_rune (small s) = (small_rune (fst (decode_rune s)), snd (decode_rune s)).
Proof.
  destruct s as [|a0 s1]; [reflexivity|]. cbn [small decode_rune].
  destruct (byte_of a0 <? 0x80)%N eqn:L.
  - destruct (small_byte_lo a0 L) as [E F]. rewrite F, E. reflexivity.
  - rewrite (small_byte_hi a0 L), L.
    destruct (in_range 0xC2 0xDF (byte_of a0)) eqn:R2.
    { destruct s1 as [|a1 s2]; [reflexivity|]. cbn [small]. rewrite small_cont. destruct (is_cont (byte_of a1)) eqn:C; [|reflexivity].
      rewrite (cont_small a1 C). cbn [fst snd]. rewrite small_rune_hi; [reflexivity|]. apply N.ltb_ge.
      unfold in_range in R2. apply andb_prop in R2. destruct R2 as [A _]. apply N.leb_le in A. lia. }
    destruct (in_range 0xE0 0xEF (byte_of a0)) eqn:R3.
    { destruct s1 as [|a1 [|a2 s2]]; [reflexivity|reflexivity|]. cbn [small]. rewrite second_small, small_cont.
      destruct (second_ok (byte_of a0) (byte_of a1)) eqn:C; [|reflexivity]. destruct (is_cont (byte_of a2)) eqn:D; [|reflexivity]. cbn [andb].
      rewrite (cont_small a1 (second_cont _ _ C)), (cont_small a2 D). cbn [fst snd]. rewrite small_rune_hi; [reflexivity|]. apply N.ltb_ge.
      unfold second_ok, is_cont, in_range in C, R3. apply andb_prop in R3. destruct R3 as [A _]. apply N.leb_le in A.
      destruct (N.eqb_spec (byte_of a0) 0xE0) as [Eq|Ne]; [|lia].
      rewrite Eq in *. apply andb_prop in C. destruct C as [C _]. apply N.leb_le in C. lia. }
    destruct (in_range 0xF0 0xF4 (byte_of a0)) eqn:R4; [|reflexivity].
    destruct s1 as [|a1 [|a2 [|a3 s2]]]; [reflexivity|reflexivity|reflexivity|]. cbn [small]. rewrite second_small, !small_cont.
    destruct (second_ok (byte_of a0) (byte_of a1)) eqn:C; [|reflexivity]. destruct (is_cont (byte_of a2)) eqn:D; [|reflexivity].
    destruct (is_cont (byte_of a3)) eqn:D3; [|reflexivity]. cbn [andb].
    rewrite (cont_small a1 (second_cont _ _ C)), (cont_small a2 D), (cont_small a3 D3). cbn [fst snd]. rewrite small_rune_hi; [reflexivity|]. apply N.ltb_ge.
    unfold second_ok, is_cont, in_range in C, R4. apply andb_prop in R4. destruct R4 as [A _]. apply N.leb_le in A.
    destruct (N.eqb_spec (byte_of a0) 0xE0) as [Eq|Ne]; [lia|]. destruct (N.eqb_spec (byte_of a0) 0xED) as [Eq|Ne']; [lia|].
    destruct (N.eqb_spec (byte_of a0) 0xF0) as [Eq|Ne'']; [|lia].
    rewrite Eq in *. apply andb_prop in C. destruct C as [C _]. apply N.leb_le in C. lia.
Qed.

Lemma small_sdrop n s : small (sdrop n s) = sdrop n (small s).
Proof. revert s. induction n as [|n IH]; intros [|a s]; cbn; auto. Qed.
Lemma small_stake n s : small (stake n s) = stake n (small s).
Proof. revert s. induction n as [|n IH]; intros [|a s]; cbn; auto. rewrite IH. reflexivity. Qed.
Lemma small_length s : String.length (small s) = String.length s.
Proof. induction s; cbn; congruence. Qed.
Lemma small_app s t : small (s ++ t) = (small s ++ small t)%string.
Proof. induction s as [|a s IH]; cbn; [reflexivity|]. rewrite IH. reflexivity. Qed.
Lemma small_error r : small_rune r = rune_error <-> r = rune_error.
Proof.
  unfold small_rune, rune_error. destruct ((65 <=? r) && (r <=? 90))%N eqn:E; cbn [andb]; [|tauto].
  apply andb_prop in E. destruct E as [A B]. apply N.leb_le in A, B. destruct (r =? 86)%N; cbn [negb]; split; intros H; lia.
Qed.

(** ** Expressions *)

(** The letters of a class come with both cases, and literals have no letters. *)
Definition upper_letters : list N := map (fun i => (65 + N.of_nat i)%N) (seq 0 26).
Definition class_ok (rs : list N) : bool :=
  forallb (fun r => Bool.eqb (mem_rune r rs) (mem_rune (small_rune r) rs)) upper_letters.
Definition letter (r : N) : bool := ((65 <=? r) && (r <=? 90) || (97 <=? r) && (r <=? 122))%N.
Definition lit_ok (s : string) : bool := forallb (fun a => negb (letter (N_of_ascii a))) (list_ascii_of_string s).
Fixpoint expr_ok (e : expr) : bool :=
  match e with
  | ELit s => lit_ok s
  | EClass rs => class_ok rs
  | EAny | EPunct | ECall _ => true
  | ESeq a b | EChoice a b => expr_ok a && expr_ok b
  | EPlus e | EOpt e | EAnd e | ENot e | ESub e | ELabel _ e | EAction _ _ e => expr_ok e
  end.
Lemma rules_ok : forallb (fun p => expr_ok (r_body (snd p))) (PositiveMap.elements rule_map) = true.
Proof. vm_compute. reflexivity. Qed.
Lemma rule_ok r : expr_ok (r_body (toaq r)) = true.
Proof.
  unfold toaq. destruct (PositiveMap.find r rule_map) as [ru|] eqn:E; [|reflexivity].
  assert (H := rules_ok). rewrite forallb_forall in H. exact (H (r, ru) (PositiveMap.elements_correct _ _ E)).
Qed.

Lemma class_small rs r : class_ok rs = true -> mem_rune r rs = mem_rune (small_rune r) rs.
Proof.
  intros K. destruct ((65 <=? r) && (r <=? 90))%N eqn:E.
  - unfold class_ok in K. rewrite forallb_forall in K. apply eqb_prop. apply K. apply andb_prop in E. destruct E as [A B]. apply N.leb_le in A, B.
    unfold upper_letters. apply in_map_iff. exists (N.to_nat (r - 65)). split; [lia|]. apply in_seq. lia.
  - unfold small_rune. rewrite E. reflexivity.
Qed.
Lemma byte_small a b : small_byte a = small_byte b -> letter (N_of_ascii a) = false -> a = b.
Proof.
  intros E L.
  assert (A : small_byte a = a). { unfold small_byte, small_rune. unfold letter in L. apply orb_false_iff in L. destruct L as [L _]. rewrite L. cbn. apply ascii_N_embedding. }
  rewrite A in E. clear A. subst a.
  destruct b as [[] [] [] [] [] [] [] []]; vm_compute in L |- *; try reflexivity; discriminate L.
Qed.
Lemma lit_small s : lit_ok s = true -> forall t u, small t = small u -> prefix s t = prefix s u.
Proof.
  unfold lit_ok. induction s as [|a s IH]; intros L t u E; [destruct t, u; reflexivity|]. cbn [list_ascii_of_string forallb] in L. apply andb_prop in L. destruct L as [La L].
  apply negb_true_iff in La. destruct t as [|b t], u as [|c u]; try discriminate E; [reflexivity|]. cbn [small] in E. injection E as E1 E2. cbn [prefix].
  destruct (ascii_dec a b) as [->|Nb].
  - rewrite <- (byte_small b c E1 La). destruct (ascii_dec b b); [|contradiction]. auto.
  - destruct (ascii_dec a c) as [->|Nc]; [|reflexivity]. contradiction Nb. apply byte_small; [symmetry; exact E1|exact La].
Qed.

(** ** Passes *)

Section Pass.
Variable is_punct : N -> bool.
Hypothesis Hp : punct_no_letter is_punct.
Variables t u : string.
Hypothesis Hs : small t = small u.
Notation G := toaq.

Lemma len_same : String.length t = String.length u.
Proof. rewrite <- (small_length t), <- (small_length u), Hs. reflexivity. Qed.
Lemma drop_same pos : small (sdrop pos t) = small (sdrop pos u).
Proof. rewrite !small_sdrop, Hs. reflexivity. Qed.
Lemma slice_same i j : small (slice t i j) = small (slice u i j).
Proof. unfold slice. rewrite !small_stake, !drop_same. reflexivity. Qed.
Lemma next_same pos : small_rune (fst (next t pos)) = small_rune (fst (next u pos)) /\ snd (next t pos) = snd (next u pos).
Proof.
  unfold next. pose proof (decode_small (sdrop pos t)) as A. pose proof (decode_small (sdrop pos u)) as B.
  rewrite (drop_same pos), B in A. injection A as A1 A2. auto.
Qed.
Lemma lit_same s pos : lit_ok s = true -> has_lit t s pos = has_lit u s pos.
Proof. intros L. apply lit_small; [exact L|apply drop_same]. Qed.
Lemma class_same rs pos : class_ok rs = true -> mem_rune (fst (next t pos)) rs = mem_rune (fst (next u pos)) rs.
Proof. intros K. rewrite (class_small rs _ K), (class_small rs (fst (next u pos)) K). destruct (next_same pos) as [-> _]. reflexivity. Qed.
Lemma any_same pos : any_ok t pos = any_ok u pos.
Proof.
  destruct (next_same pos) as [R W]. unfold any_ok. destruct (next t pos) as [r w], (next u pos) as [r' w']. cbn [fst snd] in *. subst w'. f_equal. f_equal.
  destruct (N.eqb_spec r rune_error) as [->|N], (N.eqb_spec r' rune_error) as [->|N']; try reflexivity.
  - exfalso. apply N'. apply small_error. rewrite <- R. apply small_error. reflexivity.
  - exfalso. apply N. apply small_error. rewrite R. apply small_error. reflexivity.
Qed.
Lemma punct_small r : is_punct (small_rune r) = is_punct r.
Proof.
  unfold small_rune. destruct ((65 <=? r) && (r <=? 90))%N eqn:E; cbn [andb]; [|reflexivity]. destruct (negb (r =? 86)%N); [|reflexivity].
  apply andb_prop in E. destruct E as [A B]. apply N.leb_le in A, B.
  destruct (is_punct r) eqn:P; [destruct (Hp r P); lia|]. destruct (is_punct (r + 32)%N) eqn:Q; [destruct (Hp _ Q); lia|reflexivity].
Qed.
Lemma punct_same pos : is_punct (fst (next t pos)) = is_punct (fst (next u pos)).
Proof. rewrite <- punct_small, <- (punct_small (fst (next u pos))). destruct (next_same pos) as [-> _]. reflexivity. Qed.

Ltac read pos := let R := fresh "R" in let W := fresh "W" in let P := fresh "P" in
  pose proof (next_same pos) as [R W]; pose proof (punct_same pos) as P; pose proof (any_same pos).

Lemma acc_same c1 c2 : (forall r pos st, c1 r pos st = c2 r pos st) ->
  forall e, expr_ok e = true -> forall pos perr st, acc is_punct t c1 e pos perr st = acc is_punct u c2 e pos perr st.
Proof.
  intros C. induction e; cbn [expr_ok]; intros K pos perr st; cbn [acc].
  - rewrite (lit_same s pos K). reflexivity.
  - pose proof (class_same rs pos K) as M. destruct (next_same pos) as [_ W]. destruct (next t pos) as [r w], (next u pos) as [r' w']. cbn [fst snd] in *. rewrite M, W. reflexivity.
  - rewrite any_same. destruct (next_same pos) as [_ ->]. reflexivity.
  - rewrite any_same. pose proof (punct_same pos) as P. destruct (next_same pos) as [_ W]. destruct (next t pos) as [r w], (next u pos) as [r' w']. cbn [fst snd] in *. rewrite P, W. reflexivity.
  - rewrite C. reflexivity.
  - apply andb_prop in K. destruct K as [K1 K2]. rewrite IHe1 by exact K1. destruct (acc is_punct u c2 e1 pos perr st) as [[[[p|] pe] s]|]; auto.
  - apply andb_prop in K. destruct K as [K1 K2]. rewrite IHe1 by exact K1. destruct (acc is_punct u c2 e1 pos perr st) as [[[[p|] pe] s]|]; auto.
  - rewrite IHe by exact K. destruct (acc is_punct u c2 e pos perr st) as [[[[p|] pe] s]|]; [|reflexivity|reflexivity].
    rewrite len_same, IHe by exact K. destruct (acc is_punct u c2 e p pe s) as [[[[p0|] pe0] s0]|]; [|reflexivity|reflexivity].
    generalize (String.length u). intros n. revert p0 pe0 s0. clear p pe s. induction n as [|n IH]; intros p pe s; [reflexivity|].
    rewrite IHe by exact K. destruct (acc is_punct u c2 e p pe s) as [[[[p'|] pe'] s']|]; auto.
  - rewrite IHe by exact K. reflexivity.
  - rewrite IHe by exact K. reflexivity.
  - rewrite IHe by exact K. reflexivity.
  - auto.
  - auto.
  - auto.
Qed.
Lemma accepts_same fuel : forall r start st, accepts G is_punct t fuel r start st = accepts G is_punct u fuel r start st.
Proof.
  induction fuel as [|f IH]; intros r start st; [reflexivity|]. cbn [accepts]. rewrite (acc_same _ _ IH _ (rule_ok r)). reflexivity.
Qed.

Lemma fai_same c1 c2 : (forall r pos st, c1 r pos st = c2 r pos st) -> forall ep,
  forall e, expr_ok e = true -> forall pos st, fai G is_punct t c1 ep e pos st = fai G is_punct u c2 ep e pos st.
Proof.
  intros C ep. induction e; cbn [expr_ok]; intros K pos st; cbn [fai].
  - rewrite (lit_same s pos K). reflexivity.
  - pose proof (class_same rs pos K) as M. destruct (next_same pos) as [_ W]. destruct (next t pos) as [r w], (next u pos) as [r' w']. cbn [fst snd] in *. rewrite M, W. reflexivity.
  - rewrite any_same. destruct (next_same pos) as [_ ->]. reflexivity.
  - rewrite any_same. pose proof (punct_same pos) as P. destruct (next_same pos) as [_ W]. destruct (next t pos) as [r w], (next u pos) as [r' w']. cbn [fst snd] in *. rewrite P, W. reflexivity.
  - rewrite C. reflexivity.
  - apply andb_prop in K. destruct K as [K1 K2]. rewrite IHe1 by exact K1. destruct (fai G is_punct u c2 ep e1 pos st) as [[[[p|] k] s]|]; auto. rewrite IHe2 by exact K2. reflexivity.
  - apply andb_prop in K. destruct K as [K1 K2]. rewrite IHe1 by exact K1. destruct (fai G is_punct u c2 ep e1 pos st) as [[[[p|] k] s]|]; auto. rewrite IHe2 by exact K2. reflexivity.
  - rewrite IHe by exact K. destruct (fai G is_punct u c2 ep e pos st) as [[[[p|] k] s]|]; [|reflexivity|reflexivity].
    rewrite len_same, IHe by exact K. destruct (fai G is_punct u c2 ep e p s) as [[[[p0|] k0] s0]|]; [|reflexivity|reflexivity].
    generalize (String.length u). intros n. generalize (k ++ k0)%list. clear k k0. intros k. revert p0 k s0. clear p s. induction n as [|n IH]; intros p k s; [reflexivity|].
    rewrite IHe by exact K. destruct (fai G is_punct u c2 ep e p s) as [[[[p'|] k'] s']|]; auto.
  - rewrite IHe by exact K. reflexivity.
  - rewrite IHe by exact K. reflexivity.
  - rewrite IHe by exact K. reflexivity.
  - auto.
  - auto.
  - auto.
Qed.
Lemma fail_same ds ep fuel : forall r start st, fail_of G is_punct t ds ep fuel r start st = fail_of G is_punct u ds ep fuel r start st.
Proof.
  induction fuel as [|f IH]; intros r start st; [reflexivity|]. cbn [fail_of]. destruct (failMemo ds r start ep st); [reflexivity|].
  rewrite (fai_same _ _ IH ep _ (rule_ok r)). reflexivity.
Qed.

(** The nodes stored, and the results, are the same up to case. *)
Definition stored (a b : nst) : Prop := forall r pos, option_map small_tree (m2_get a r pos) = option_map small_tree (m2_get b r pos).
Definition found (a b : option (nat * list pnode)) : Prop :=
  option_map (fun x => (fst x, map small_tree (snd x))) a = option_map (fun x => (fst x, map small_tree (snd x))) b.
Definition found1 (a b : option (nat * pnode)) : Prop :=
  option_map (fun x => (fst x, small_tree (snd x))) a = option_map (fun x => (fst x, small_tree (snd x))) b.
Definition run_same {A} (R : A -> A -> Prop) (x y : option (A * nst)) : Prop :=
  match x, y with
  | Some (a, s), Some (b, s') => R a b /\ stored s s'
  | None, None => True
  | _, _ => False
  end.
Lemma found_some p k p' k' : found (Some (p, k)) (Some (p', k')) -> p = p' /\ map small_tree k = map small_tree k'.
Proof. intros E. injection E. auto. Qed.
Lemma found_pair p k k' : map small_tree k = map small_tree k' -> found (Some (p, k)) (Some (p, k')).
Proof. intros E. unfold found. cbn. rewrite E. reflexivity. Qed.
Lemma leaf_same i j : map small_tree [leaf t i j] = map small_tree [leaf u i j].
Proof. unfold leaf. cbn. rewrite slice_same. reflexivity. Qed.

Lemma nod_same c1 c2 : (forall r pos s s', stored s s' -> run_same found1 (c1 r pos s) (c2 r pos s')) ->
  forall e, expr_ok e = true -> forall pos s s', stored s s' -> run_same found (nod is_punct t c1 e pos s) (nod is_punct u c2 e pos s').
Proof.
  intros C. induction e; cbn [expr_ok]; intros K pos st st' I; cbn [nod].
  - rewrite (lit_same s pos K). destruct (has_lit u s pos); (split; [|exact I]); [apply found_pair, leaf_same|reflexivity].
  - pose proof (class_same rs pos K) as M. destruct (next_same pos) as [_ W]. destruct (next t pos) as [r w], (next u pos) as [r' w']. cbn [fst snd] in *. rewrite M, W.
    destruct (mem_rune r' rs); (split; [|exact I]); [apply found_pair, leaf_same|reflexivity].
  - rewrite any_same. destruct (next_same pos) as [_ ->]. destruct (any_ok u pos); (split; [|exact I]); [apply found_pair, leaf_same|reflexivity].
  - rewrite any_same. pose proof (punct_same pos) as P. destruct (next_same pos) as [_ W]. destruct (next t pos) as [r w], (next u pos) as [r' w']. cbn [fst snd] in *. rewrite P, W.
    destruct (any_ok u pos); [|split; [reflexivity|exact I]]. destruct (is_punct r'); (split; [|exact I]); [apply found_pair, leaf_same|reflexivity].
  - specialize (C r pos st st' I). destruct (c1 r pos st) as [[[[p k]|] s1]|], (c2 r pos st') as [[[[p' k']|] s1']|]; cbn in C; try contradiction;
      try (destruct C as [C _]; discriminate C); [| |exact Logic.I].
    + destruct C as [C J]. injection C as -> C. split; [|exact J]. apply found_pair. cbn. rewrite C. reflexivity.
    + destruct C as [_ J]. split; [reflexivity|exact J].
  - apply andb_prop in K. destruct K as [K1 K2]. specialize (IHe1 K1 pos st st' I).
    destruct (nod is_punct t c1 e1 pos st) as [[[[p k]|] s1]|], (nod is_punct u c2 e1 pos st') as [[[[p' k']|] s1']|]; cbn in IHe1; try contradiction;
      try (destruct IHe1 as [C' _]; discriminate C'); [|exact IHe1|exact Logic.I].
    destruct IHe1 as [F J]. apply found_some in F. destruct F as [-> F]. specialize (IHe2 K2 p' s1 s1' J).
    destruct (nod is_punct t c1 e2 p' s1) as [[[[q k2]|] s2]|], (nod is_punct u c2 e2 p' s1') as [[[[q' k2']|] s2']|]; cbn in IHe2; try contradiction;
      try (destruct IHe2 as [C' _]; discriminate C'); [|exact IHe2|exact Logic.I].
    destruct IHe2 as [F2 J2]. apply found_some in F2. destruct F2 as [-> F2]. split; [|exact J2]. apply found_pair. rewrite !map_app, F, F2. reflexivity.
  - apply andb_prop in K. destruct K as [K1 K2]. specialize (IHe1 K1 pos st st' I).
    destruct (nod is_punct t c1 e1 pos st) as [[[[p k]|] s1]|], (nod is_punct u c2 e1 pos st') as [[[[p' k']|] s1']|]; cbn in IHe1; try contradiction;
      try (destruct IHe1 as [C' _]; discriminate C'); [exact IHe1| |exact Logic.I].
    destruct IHe1 as [_ J]. exact (IHe2 K2 pos s1 s1' J).
  - assert (B := IHe K pos st st' I).
    destruct (nod is_punct t c1 e pos st) as [[[[p k]|] s1]|], (nod is_punct u c2 e pos st') as [[[[p' k']|] s1']|]; cbn in B; try contradiction;
      try (destruct B as [C' _]; discriminate C'); [|exact B|exact Logic.I].
    destruct B as [F J]. apply found_some in F. destruct F as [-> F]. rewrite len_same.
    assert (B := IHe K p' s1 s1' J).
    destruct (nod is_punct t c1 e p' s1) as [[[[q k2]|] s2]|], (nod is_punct u c2 e p' s1') as [[[[q' k2']|] s2']|]; cbn in B; try contradiction;
      try (destruct B as [C' _]; discriminate C'); [|destruct B as [_ J2]; split; [apply found_pair, F|exact J2]|exact Logic.I].
    destruct B as [F2 J2]. apply found_some in F2. destruct F2 as [-> F2].
    assert (F3 : map small_tree (k ++ k2)%list = map small_tree (k' ++ k2')%list) by (rewrite !map_app, F, F2; reflexivity).
    revert F3 J2. generalize (k ++ k2)%list (k' ++ k2')%list (String.length u). clear p' k k' k2 k2' s1 s1' F F2 J. intros k k' n F J.
    rename s2 into s1, s2' into s1', q' into p'. revert p' k k' s1 s1' F J. induction n as [|n IH]; intros p k k' s1 s1' F J; [exact Logic.I|].
    assert (B := IHe K p s1 s1' J).
    destruct (nod is_punct t c1 e p s1) as [[[[q k2]|] s2]|], (nod is_punct u c2 e p s1') as [[[[q' k2']|] s2']|]; cbn in B; try contradiction;
      try (destruct B as [C' _]; discriminate C'); [| |exact Logic.I].
    + destruct B as [F2 J2]. apply found_some in F2. destruct F2 as [-> F2]. apply IH; [|exact J2]. rewrite !map_app, F, F2. reflexivity.
    + destruct B as [_ J2]. split; [apply found_pair, F|exact J2].
  - specialize (IHe K pos st st' I).
    destruct (nod is_punct t c1 e pos st) as [[[[p k]|] s1]|], (nod is_punct u c2 e pos st') as [[[[p' k']|] s1']|]; cbn in IHe; try contradiction;
      try (destruct IHe as [C' _]; discriminate C'); [exact IHe| |exact Logic.I].
    destruct IHe as [_ J]. split; [reflexivity|exact J].
  - specialize (IHe K pos st st' I).
    destruct (nod is_punct t c1 e pos st) as [[[[p k]|] s1]|], (nod is_punct u c2 e pos st') as [[[[p' k']|] s1']|]; cbn in IHe; try contradiction;
      try (destruct IHe as [C' _]; discriminate C'); [|exact IHe|exact Logic.I].
    destruct IHe as [_ J]. split; [reflexivity|exact J].
  - specialize (IHe K pos st st' I).
    destruct (nod is_punct t c1 e pos st) as [[[[p k]|] s1]|], (nod is_punct u c2 e pos st') as [[[[p' k']|] s1']|]; cbn in IHe; try contradiction;
      try (destruct IHe as [C' _]; discriminate C'); [| |exact Logic.I]; destruct IHe as [_ J]; (split; [reflexivity|exact J]).
  - specialize (IHe K pos st st' I).
    destruct (nod is_punct t c1 e pos st) as [[[[p k]|] s1]|], (nod is_punct u c2 e pos st') as [[[[p' k']|] s1']|]; cbn in IHe; try contradiction;
      try (destruct IHe as [C' _]; discriminate C'); [|exact IHe|exact Logic.I].
    destruct IHe as [F J]. apply found_some in F. destruct F as [-> F]. split; [|exact J]. apply found_pair. unfold sub_node. cbn. rewrite slice_same, F. reflexivity.
  - auto.
  - auto.
Qed.
Lemma stored_set a b r pos n m : stored a b -> small_tree n = small_tree m -> stored (m2_set a r pos n) (m2_set b r pos m).
Proof.
  intros I E r' pos'.
  destruct (Pos.eq_dec r r') as [<-|Nr]; [destruct (Nat.eq_dec pos pos') as [<-|Np]|].
  - rewrite !m2_gss. cbn. rewrite E. reflexivity.
  - rewrite !m2_gso by congruence. apply I.
  - rewrite !m2_gso by congruence. apply I.
Qed.
Lemma node_same ds fuel : forall r start s s', stored s s' -> run_same found1 (node_of G is_punct t ds fuel r start s) (node_of G is_punct u ds fuel r start s').
Proof.
  induction fuel as [|f IH]; intros r start s s' I; [exact Logic.I|]. cbn [node_of].
  destruct (fst (delta ds r start) <? 0)%Z; [split; [reflexivity|exact I]|]. pose proof (I r start) as M.
  destruct (m2_get s r start) as [n|], (m2_get s' r start) as [n'|]; try discriminate M.
  - injection M as M. split; [|exact I]. unfold found1. cbn. rewrite M. reflexivity.
  - pose proof (nod_same _ _ IH _ (rule_ok r) start s s' I) as B.
    destruct (nod is_punct t _ _ start s) as [[[[p k]|] s1]|], (nod is_punct u _ _ start s') as [[[[p' k']|] s1']|]; cbn in B; try contradiction;
      try (destruct B as [C' _]; discriminate C'); [| |exact Logic.I].
    + destruct B as [F J]. apply found_some in F. destruct F as [-> F].
      assert (Q : small_tree (PNode (r_name (G r)) (slice t start p') k) = small_tree (PNode (r_name (G r)) (slice u start p') k')) by (cbn; rewrite slice_same, F; reflexivity).
      split; [unfold found1; cbn [option_map fst snd]; rewrite Q; reflexivity|]. apply stored_set; assumption.
    + destruct B as [_ J]. split; [reflexivity|exact J].
Qed.

(** ** Tree *)

Lemma step_same l : loc_step t l = loc_step u l.
Proof.
  unfold loc_step. destruct (next_same (l_byte l)) as [R W]. unfold next in *.
  destruct (decode_rune (sdrop (l_byte l) t)) as [r w], (decode_rune (sdrop (l_byte l) u)) as [r' w']. cbn [fst snd] in *. subst w'.
  assert (E : (r =? 10)%N = (r' =? 10)%N).
  { assert (X : forall x, (x =? 10)%N = (small_rune x =? 10)%N).
    { intros x. unfold small_rune. destruct ((65 <=? x) && (x <=? 90))%N eqn:E; cbn [andb]; [|reflexivity].
      apply andb_prop in E. destruct E as [A B]. apply N.leb_le in A, B. destruct (negb (x =? 86)%N); [|reflexivity].
      destruct (N.eqb_spec x 10), (N.eqb_spec (x + 32) 10); try reflexivity; lia. }
    rewrite (X r), (X r'), R. reflexivity. }
  rewrite E. reflexivity.
Qed.
Lemma location_same b : location t b = location u b.
Proof.
  unfold location, location_in. generalize loc0. generalize b at 1 3. intros n. induction n as [|n IH]; intros l; cbn [location_loop]; [reflexivity|].
  rewrite step_same, IH. reflexivity.
Qed.

Definition error_same (e e' : perror) : Prop := pe_tree e = pe_tree e' /\ pe_loc e = pe_loc e' /\ small (pe_msg e) = small (pe_msg e').
Definition same_error (a b : res perror) : Prop :=
  match a, b with
  | Ok e, Ok e' => error_same e e'
  | Panic q, Panic q' => q = q'
  | NoFuel, NoFuel => True
  | _, _ => False
  end.
Lemma message_same f : same_error (simple_error t f) (simple_error u f).
Proof.
  unfold simple_error. destruct (leaf_fails f) as [|l ls]; [reflexivity|]. rewrite location_same. destruct (location u (f_pos l)); [|exact Logic.I].
  split; [reflexivity|]. split; [reflexivity|]. cbn [pe_msg]. rewrite !small_app. rewrite len_same.
  f_equal. f_equal. f_equal. destruct (f_pos l <? String.length u); [|reflexivity]. rewrite !small_app, !small_stake, drop_same. reflexivity.
Qed.

Definition tree_same (a b : res (Parser.outcome (option pnode))) : Prop :=
  match a, b with
  | Ok (Got o), Ok (Got o') => option_map small_tree o = option_map small_tree o'
  | Ok (Err e), Ok (Err e') => error_same e e'
  | Panic q, Panic q' => q = q'
  | NoFuel, NoFuel => True
  | _, _ => False
  end.
Theorem trees_same : tree_same (fst (tree is_punct (new_parser t))) (fst (tree is_punct (new_parser u))).
Proof.
  unfold tree, parse. cbn [new_parser q_text q_m q_node q_fail q_act].
  assert (F : forall s r, enough t s r = enough u s r) by (intros; unfold enough; rewrite len_same; reflexivity).
  rewrite len_same. destruct (String.length u <? 0); [reflexivity|]. rewrite F, accepts_same.
  destruct (accepts G is_punct u (enough u 0 r_full_text) r_full_text 0 mst0) as [[[dp pe] m]|]; [|exact Logic.I].
  destruct (0 <=? dp)%Z.
  - cbn [q_text q_m q_node]. rewrite ?F. assert (B := node_same m (enough u 0 r_full_text) r_full_text 0 m2_empty m2_empty (fun _ _ => eq_refl)).
    destruct (node_of G is_punct t m _ _ _ _) as [[o s]|], (node_of G is_punct u m _ _ _ _) as [[o' s']|]; cbn in B; try contradiction; [|exact Logic.I].
    destruct B as [B _]. cbn [fst tree_same]. destruct o as [[p n]|], o' as [[p' n']|]; try discriminate B; [|reflexivity]. injection B as _ B. cbn. rewrite B. reflexivity.
  - rewrite ?F, fail_same. destruct (fail_of G is_punct u m pe _ _ _ _) as [[[x f] fs]|]; [|exact Logic.I].
    pose proof (message_same f) as M. destruct (simple_error t f), (simple_error u f); cbn in M |- *; try contradiction; auto.
Qed.
End Pass.
