(** Strings that differ only in the case of letters, and what the tables of tones make of
    them. *)

From Coq Require Import String Ascii NArith ZArith PArith List Bool Lia Arith.
From Verif Require Import Base Utf8 Utf8Facts Peg Tone ToneFacts Ast Action CaseFold CaseFacts CaseText.
Import ListNotations.
Open Scope string_scope.
Open Scope list_scope.

Definition swaps : list (string * string) :=
  ("I", "ı") :: ("ı", "I") :: capitals ++ map (fun p => (snd p, fst p)) capitals.
Inductive alike : string -> string -> Prop :=
  | KNone : alike "" ""
  | KByte a b s s' : small_byte a = small_byte b -> alike s s' -> alike (String a s) (String b s')
  | KSwap x y s s' : In (x, y) swaps -> alike s s' -> alike (x ++ s)%string (y ++ s')%string.

Lemma alike_small : forall s s', small s = small s' -> alike s s'.
Proof.
  induction s as [|a s IH]; intros [|b s'] E; try discriminate E; [constructor|]. cbn in E. injection E as E1 E2. constructor; auto.
Qed.
Lemma alike_app a b c d : alike a b -> alike c d -> alike (a ++ c)%string (b ++ d)%string.
Proof.
  intros H K. induction H as [|x y s s' E H IH|x y s s' I H IH]; [exact K|cbn; constructor; auto|].
  rewrite !sapp_assoc. apply KSwap; assumption.
Qed.
Lemma swaps_sym x y : In (x, y) swaps -> In (y, x) swaps.
Proof.
  intros H. assert (X : forallb (fun p => existsb (fun q => (String.eqb (fst p) (snd q) && String.eqb (snd p) (fst q))%bool) swaps) swaps = true) by (vm_compute; reflexivity).
  rewrite forallb_forall in X. specialize (X _ H). apply existsb_exists in X. destruct X as ([p q] & I & E). apply andb_prop in E. destruct E as [A B].
  apply String.eqb_eq in A, B. cbn in A, B. subst. exact I.
Qed.
Lemma alike_sym a b : alike a b -> alike b a.
Proof. induction 1; [constructor|constructor; auto|]. apply KSwap; [apply swaps_sym|]; assumption. Qed.
Lemma alike_refl s : alike s s.
Proof. apply alike_small. reflexivity. Qed.

Lemma alike_nil s : alike "" s -> s = "".
Proof.
  intros H. remember "" as z eqn:E. revert E. destruct H as [|a b s s' _ _|x y s s' I H]; intros E; [reflexivity|discriminate E|].
  exfalso. assert (X : forallb (fun p => negb (String.eqb (fst p) "")) swaps = true) by (vm_compute; reflexivity).
  rewrite forallb_forall in X. specialize (X _ I). destruct x; [discriminate X|discriminate E].
Qed.
Lemma alike_inv a s z : alike (String a s) z ->
  (exists b s', z = String b s' /\ small_byte a = small_byte b /\ alike s s') \/
  (exists x y r r', In (x, y) swaps /\ String a s = (x ++ r)%string /\ z = (y ++ r')%string /\ alike r r').
Proof.
  intros H. remember (String a s) as q eqn:E. destruct H as [|c b s1 s' B H|x y s1 s' I H]; [discriminate E| |].
  - injection E as -> ->. left. eauto.
  - right. eauto 10.
Qed.

(** A byte inside of a character is the same in both. *)
Lemma alike_cont a s z : is_cont (byte_of a) = true -> alike (String a s) z -> exists s', z = String a s' /\ alike s s'.
Proof.
  intros C H. destruct (alike_inv _ _ _ H) as [(b & s' & -> & B & K)|(x & y & r & r' & I & E & _)].
  - exists s'. split; [|exact K]. f_equal. rewrite (cont_small a C) in B. subst a.
    destruct b as [[] [] [] [] [] [] [] []]; vm_compute in C |- *; try reflexivity; discriminate C.
  - exfalso. assert (X : forallb (fun p => match fst p with EmptyString => false | String c _ => negb (is_cont (byte_of c)) end) swaps = true) by (vm_compute; reflexivity).
    rewrite forallb_forall in X. specialize (X _ I). cbn [fst] in X. destruct x as [|c x]; [discriminate X|]. injection E as -> _. rewrite C in X. discriminate X.
Qed.
Lemma hi_same a b : (byte_of a <? 0x80)%N = false -> small_byte a = small_byte b -> b = a.
Proof.
  intros A E. rewrite (small_byte_hi a A) in E. subst a.
  destruct b as [[] [] [] [] [] [] [] []]; vm_compute in A |- *; try reflexivity; discriminate A.
Qed.

(** ** Making small *)

Lemma prefix_split x : forall s, prefix x s = true -> exists r, s = (x ++ r)%string.
Proof.
  induction x as [|a x IH]; intros s H; [exists s; reflexivity|]. destruct s as [|b s]; [discriminate H|]. cbn in H.
  destruct (ascii_dec a b) as [->|]; [|discriminate H]. destruct (IH s H) as (r & ->). exists r. reflexivity.
Qed.
Definition lead (s : string) : option (string * string) := find (fun p => prefix (fst p) s) lows.
Lemma low_cons a s : low 0 (String a s) = match lead (String a s) with Some (x, y) => (y ++ low (pred (String.length x)) s)%string | None => String (small_byte a) (low 0 s) end.
Proof. reflexivity. Qed.
Definition apart (x : string) : bool := forallb (fun p => (String.length (fst p) <=? String.length x)%nat || negb (prefix x (fst p)))%bool lows.
Lemma prefix_app p : forall x s, ((String.length p <=? String.length x)%nat || negb (prefix x p))%bool = true -> prefix p (x ++ s)%string = prefix p x.
Proof.
  induction p as [|a p IH]; intros x s H; [destruct x, s; reflexivity|]. destruct x as [|b x]; [cbn in H; destruct p; discriminate H|]. cbn.
  destruct (ascii_dec a b) as [->|]; [|reflexivity]. apply IH. cbn in H. destruct (ascii_dec b b); [exact H|contradiction].
Qed.
Lemma lead_app x s : apart x = true -> lead (x ++ s)%string = lead x.
Proof.
  unfold apart, lead. generalize lows. intros l. induction l as [|p l IH]; [reflexivity|]. cbn [forallb find]. intros H. apply andb_prop in H. destruct H as [A B].
  rewrite (prefix_app _ _ s A), (IH B). reflexivity.
Qed.
Fixpoint whole (x : string) : bool := match x with EmptyString => true | String _ x' => apart x && whole x' end.
Lemma prefix_length p : forall x, prefix p x = true -> (String.length p <= String.length x)%nat.
Proof. intros x H. destruct (prefix_split _ _ H) as (r & ->). rewrite slength_app. lia. Qed.
Lemma low_app x s : whole x = true -> forall k, (k <= String.length x)%nat -> low k (x ++ s)%string = (low k x ++ low 0 s)%string.
Proof.
  induction x as [|a x IH]; intros W k K; [cbn in K; replace k with 0%nat by lia; reflexivity|]. cbn [whole] in W. apply andb_prop in W. destruct W as [A W].
  destruct k as [|k]; [|cbn [append low]; apply IH; [exact W|cbn in K; lia]].
  pose proof (lead_app _ s A) as L. cbn [append] in L |- *. rewrite !low_cons, L. destruct (lead (String a x)) as [[p q]|] eqn:E.
  - rewrite IH; [rewrite sapp_assoc; reflexivity|exact W|]. unfold lead in E. apply find_some in E. destruct E as [_ E]. apply prefix_length in E. cbn in E. cbn [fst] in E. lia.
  - cbn [append]. rewrite (IH W 0%nat) by lia. reflexivity.
Qed.
Lemma swaps_low : forallb (fun p => whole (fst p) && whole (snd p) && String.eqb (low 0 (fst p)) (low 0 (snd p)))%bool swaps = true.
Proof. vm_compute. reflexivity. Qed.
Lemma swap_low x y s s' : In (x, y) swaps -> low 0 s = low 0 s' -> low 0 (x ++ s)%string = low 0 (y ++ s')%string.
Proof.
  intros I E. pose proof swaps_low as X. rewrite forallb_forall in X. specialize (X _ I). cbn [fst snd] in X. apply andb_prop in X. destruct X as [X Y]. apply andb_prop in X. destruct X as [X1 X2].
  apply String.eqb_eq in Y. rewrite !low_app by (assumption || lia). rewrite Y, E. reflexivity.
Qed.

(** What stands for a capital or dotless letter on the one side does so on the other. *)
Fixpoint conts (x : string) : bool := match x with EmptyString => true | String c x' => is_cont (byte_of c) && conts x' end.
Lemma alike_conts x : conts x = true -> forall s z, alike (x ++ s)%string z -> exists s', z = (x ++ s')%string /\ alike s s'.
Proof.
  induction x as [|c x IH]; intros C s z H; [exists z; auto|]. cbn [conts] in C. apply andb_prop in C. destruct C as [C1 C2].
  cbn [append] in H. destruct (alike_cont _ _ _ C1 H) as (z' & -> & K). destruct (IH C2 _ _ K) as (s' & -> & L). exists s'. auto.
Qed.
Lemma lows_hi : forallb (fun p => match fst p with EmptyString => false | String a x => negb (byte_of a <? 0x80)%N && conts x && whole (fst p) && match lead (fst p) with Some (x', y') => String.eqb x' (fst p) | None => false end end)%bool lows = true.
Proof. vm_compute. reflexivity. Qed.
Lemma lead_alike a b s s' x y : small_byte a = small_byte b -> alike s s' -> lead (String a s) = Some (x, y) ->
  exists x' r r', x = String a x' /\ b = a /\ s = (x' ++ r)%string /\ s' = (x' ++ r')%string /\ alike r r' /\ lead (String b s') = Some (x, y).
Proof.
  intros E H L. assert (L0 := L). unfold lead in L. apply find_some in L. destruct L as [I P]. cbn [fst] in P. destruct (prefix_split _ _ P) as (r & Er).
  pose proof lows_hi as X. rewrite forallb_forall in X. specialize (X _ I). cbn [fst] in X. destruct x as [|c x']; [discriminate X|].
  injection Er as -> ->. apply andb_prop in X. destruct X as [X X4]. apply andb_prop in X. destruct X as [X X3]. apply andb_prop in X. destruct X as [X1 X2]. apply negb_true_iff in X1.
  pose proof (hi_same _ _ X1 E) as ->. destruct (alike_conts _ X2 _ _ H) as (r' & -> & K). exists x', r, r'. repeat (split; [reflexivity|]). split; [exact K|].
  cbn [whole] in X3. apply andb_prop in X3. destruct X3 as [X3 _]. change (String c (x' ++ r)) with (String c x' ++ r)%string in L0. change (String c (x' ++ r')) with (String c x' ++ r')%string.
  rewrite lead_app in L0 |- * by exact X3. exact L0.
Qed.
Lemma low_skip x s : low (String.length x) (x ++ s)%string = low 0 s.
Proof. induction x as [|a x IH]; [reflexivity|]. cbn. exact IH. Qed.
Theorem alike_low s s' : alike s s' -> low 0 s = low 0 s'.
Proof.
  remember (String.length s) as n eqn:N. assert (B : (String.length s <= n)%nat) by lia. clear N. revert s s' B. induction n as [|n IH]; intros s s' B H.
  - destruct s; [|cbn in B; lia]. apply alike_nil in H. subst. reflexivity.
  - destruct H as [|a b s s' E H|x y s s' I H]; [reflexivity| |].
    + rewrite !low_cons. cbn in B. destruct (lead (String a s)) as [[x y]|] eqn:L.
      * destruct (lead_alike _ _ _ _ _ _ E H L) as (x' & r & r' & -> & -> & -> & -> & K & ->). cbn [String.length pred]. rewrite !low_skip. f_equal. apply IH; [|exact K]. rewrite slength_app in B. lia.
      * destruct (lead (String b s')) as [[x y]|] eqn:L'.
        -- destruct (lead_alike _ _ _ _ _ _ (eq_sym E) (alike_sym _ _ H) L') as (? & ? & ? & _ & _ & _ & _ & _ & L2). congruence.
        -- rewrite E. f_equal. apply IH; [lia|exact H].
    + apply swap_low; [exact I|]. apply IH; [|exact H].
      assert (X : forallb (fun p => negb (String.eqb (fst p) "")) swaps = true) by (vm_compute; reflexivity). rewrite forallb_forall in X. specialize (X _ I).
      destruct x; [discriminate X|]. cbn in B. rewrite slength_app in B. lia.
Qed.

(** ** The tables of tones *)

Definition keys : list (string * string) :=
  [("a", "a"); ("a", "A"); ("A", "a"); ("A", "A"); ("u", "u"); ("u", "U"); ("U", "u"); ("U", "U");
   ("i", "i"); ("i", "I"); ("I", "i"); ("I", "I"); ("I", "ı"); ("ı", "I"); ("ı", "ı");
   ("o", "o"); ("o", "O"); ("O", "o"); ("O", "O"); ("e", "e"); ("e", "E"); ("E", "e"); ("E", "E")].
Lemma keys_sym k k' : In (k, k') keys -> In (k', k) keys.
Proof.
  intros H. assert (X : forallb (fun p => existsb (fun q => (String.eqb (fst p) (snd q) && String.eqb (snd p) (fst q))%bool) keys) keys = true) by (vm_compute; reflexivity).
  rewrite forallb_forall in X. specialize (X _ H). apply existsb_exists in X. destruct X as ([p q] & I & E). apply andb_prop in E. destruct E as [A B].
  apply String.eqb_eq in A, B. cbn in A, B. subst. exact I.
Qed.
Definition byte_keys : bool :=
  forallb (fun p => match fst p with
    | String a EmptyString => forallb (fun b => negb (Ascii.eqb (small_byte a) (small_byte b)) || existsb (fun q => String.eqb (fst q) (fst p) && String.eqb (snd q) (String b "")) keys)
        (map ascii_of_nat (seq 0 256))
    | String a (String c EmptyString) => negb (byte_of a <? 0x80)%N && is_cont (byte_of c) && existsb (fun q => String.eqb (fst q) (fst p) && String.eqb (snd q) (fst p)) keys
    | _ => false
    end)%bool keys.
Lemma byte_keys_ok : byte_keys = true.
Proof. vm_compute. reflexivity. Qed.
(** A string that starts with a key swaps only that. *)
Definition swap_keys : bool :=
  forallb (fun p => forallb (fun q =>
     negb (prefix (fst q) (fst p)) && negb (prefix (fst p) (fst q)) || String.eqb (fst q) (fst p) && existsb (fun r => String.eqb (fst r) (fst p) && String.eqb (snd r) (snd q)) keys)
   swaps)%bool keys.
Lemma swap_keys_ok : swap_keys = true.
Proof. vm_compute. reflexivity. Qed.
Lemma app_prefix a : forall b c d, (a ++ c)%string = (b ++ d)%string -> prefix a b = true \/ prefix b a = true.
Proof.
  induction a as [|x a IH]; intros [|y b] c d E; [auto|auto|right; reflexivity|]. injection E as -> E. cbn. destruct (ascii_dec y y); [|contradiction]. eapply IH, E.
Qed.
Lemma app_same a : forall c d, (a ++ c)%string = (a ++ d)%string -> c = d.
Proof. induction a as [|x a IH]; intros c d E; [exact E|]. injection E as E. auto. Qed.
Lemma key_in k k' : existsb (fun q => String.eqb (fst q) k && String.eqb (snd q) k')%bool keys = true -> In (k, k') keys.
Proof. intros H. apply existsb_exists in H. destruct H as ([p q] & I & E). apply andb_prop in E. destruct E as [A B]. apply String.eqb_eq in A, B. cbn in A, B. subst. exact I. Qed.
Lemma key_split k k0 s z : In (k, k0) keys -> alike (k ++ s)%string z -> exists k' s', z = (k' ++ s')%string /\ alike s s' /\ In (k, k') keys.
Proof.
  intros I H. pose proof byte_keys_ok as X. unfold byte_keys in X. rewrite forallb_forall in X. specialize (X _ I). cbn [fst] in X.
  pose proof swap_keys_ok as Y. unfold swap_keys in Y. rewrite forallb_forall in Y. specialize (Y _ I). cbn [fst] in Y. rewrite forallb_forall in Y.
  assert (W : forall x y r r', In (x, y) swaps -> (k ++ s)%string = (x ++ r)%string -> z = (y ++ r')%string -> alike r r' -> exists k' s', z = (k' ++ s')%string /\ alike s s' /\ In (k, k') keys).
  { intros x y r r' J E -> K. specialize (Y _ J). cbn [fst snd] in Y. apply orb_prop in Y. destruct Y as [Y|Y]; apply andb_prop in Y; destruct Y as [Y1 Y2].
    - apply negb_true_iff in Y1, Y2. destruct (app_prefix _ _ _ _ E); congruence.
    - apply String.eqb_eq in Y1. subst x. apply app_same in E. subst r. exists y, r'. split; [reflexivity|]. split; [exact K|apply key_in, Y2]. }
  destruct k as [|a [|c [|? ?]]]; try discriminate X.
  - cbn [append] in H. destruct (alike_inv _ _ _ H) as [(b & s' & -> & B & K)|(x & y & r & r' & J & E & Ez & K)]; [|eapply W; eauto].
    exists (String b ""), s'. split; [reflexivity|]. split; [exact K|]. rewrite forallb_forall in X.
    assert (Q : In b (map ascii_of_nat (seq 0 256))). { apply in_map_iff. exists (nat_of_ascii b). split; [apply ascii_nat_embedding|]. apply in_seq. pose proof (nat_ascii_bounded b). lia. }
    specialize (X b Q). apply orb_prop in X. destruct X as [X|X]; [|apply key_in, X]. apply negb_true_iff in X. rewrite B, Ascii.eqb_refl in X. discriminate X.
  - apply andb_prop in X. destruct X as [X X3]. apply andb_prop in X. destruct X as [X1 X2]. apply negb_true_iff in X1.
    cbn [append] in H. destruct (alike_inv _ _ _ H) as [(b & s' & -> & B & K)|(x & y & r & r' & J & E & Ez & K)]; [|eapply W; eauto].
    pose proof (hi_same _ _ X1 B) as ->. destruct (alike_cont _ _ _ X2 K) as (s'' & -> & K'). exists (String a (String c "")), s''. split; [reflexivity|]. split; [exact K'|apply key_in, X3].
Qed.

Definition like_res {A} (R : A -> A -> Prop) (x y : res A) : Prop :=
  match x, y with
  | Ok a, Ok b => R a b
  | Panic p, Panic q => p = q
  | NoFuel, NoFuel => True
  | _, _ => False
  end.
Definition forms_ok : bool :=
  forallb (fun row : tone_row => forallb (fun p => match slookup (fst p) (snd row), slookup (snd p) (snd row) with
    | Some (f :: _), Some (g :: _) => String.eqb f g || existsb (fun q => String.eqb (fst q) f && String.eqb (snd q) g) swaps
    | _, _ => false
    end) keys && forallb (fun e => existsb (fun p => String.eqb (fst p) (fst e)) keys) (snd row))%bool diacritic.
Lemma forms : forms_ok = true.
Proof. vm_compute. reflexivity. Qed.
Lemma lookup_in {B} t : forall (m : list (N * B)) r, lookup t m = Some r -> In (t, r) m.
Proof. induction m as [|[k v] m IH]; intros r H; [discriminate H|]. cbn in H. destruct (N.eqb_spec t k); [injection H as ->; subst; left; reflexivity|right; auto]. Qed.
Lemma slookup_in {B} t : forall (m : list (string * B)) r, slookup t m = Some r -> In (t, r) m.
Proof. induction m as [|[k v] m IH]; intros r H; [discriminate H|]. cbn in H. destruct (String.eqb_spec t k); [injection H as ->; subst; left; reflexivity|right; auto]. Qed.
Lemma diacritic_keys t k k' : In (k, k') keys -> like_res alike (diacritic_of t k) (diacritic_of t k').
Proof.
  intros I. unfold diacritic_of. destruct (lookup t diacritic) as [row|] eqn:L; [|reflexivity]. apply lookup_in in L.
  pose proof forms as X. unfold forms_ok in X. rewrite forallb_forall in X. specialize (X _ L). apply andb_prop in X. destruct X as [X _]. rewrite forallb_forall in X. specialize (X _ I). cbn [fst snd] in X.
  destruct (slookup k row) as [[|f ?]|]; try discriminate X. destruct (slookup k' row) as [[|g ?]|]; try discriminate X. cbn. apply orb_prop in X. destruct X as [X|X].
  - apply String.eqb_eq in X. subst. apply alike_refl.
  - apply existsb_exists in X. destruct X as ([p q] & J & E). apply andb_prop in E. destruct E as [A B]. apply String.eqb_eq in A, B. cbn in A, B. subst.
    rewrite <- (sapp_nil_r f), <- (sapp_nil_r g). apply KSwap; [exact J|constructor].
Qed.
Lemma diacritic_key t l f : diacritic_of t l = Ok f -> exists l0, In (l, l0) keys.
Proof.
  unfold diacritic_of. destruct (lookup t diacritic) as [row|] eqn:L; [|discriminate]. apply lookup_in in L. destruct (slookup l row) as [fs|] eqn:S; [|discriminate]. apply slookup_in in S. intros _.
  pose proof forms as X. unfold forms_ok in X. rewrite forallb_forall in X. specialize (X _ L). apply andb_prop in X. destruct X as [_ X]. rewrite forallb_forall in X. specialize (X _ S). cbn [fst snd] in X.
  apply existsb_exists in X. destruct X as ([p q] & J & E). apply String.eqb_eq in E. cbn in E. subst. eauto.
Qed.
Lemma diacritic_not t l : (forall f, diacritic_of t l <> Ok f) -> diacritic_of t l = Panic PRuntime.
Proof. unfold diacritic_of, runtime_panic. destruct (lookup t diacritic) as [row|]; [|reflexivity]. destruct (slookup l row) as [[|f ?]|]; try reflexivity. intros H. contradiction (H f). reflexivity. Qed.
Lemma diacritic_alike t l l' : alike l l' -> like_res alike (diacritic_of t l) (diacritic_of t l').
Proof.
  assert (P : forall a b f, alike a b -> diacritic_of t a = Ok f -> like_res alike (diacritic_of t a) (diacritic_of t b)).
  { intros a b f H E. destruct (diacritic_key _ _ _ E) as (k0 & K). rewrite <- (sapp_nil_r a) in H. destruct (key_split _ _ _ _ K H) as (k' & s' & -> & N & J).
    apply alike_nil in N. subst s'. rewrite sapp_nil_r. apply diacritic_keys, J. }
  intros H. destruct (diacritic_of t l) as [f|q|] eqn:E.
  - rewrite <- E. eapply P; eauto.
  - destruct (diacritic_of t l') as [g|q'|] eqn:E'.
    + pose proof (P _ _ _ (alike_sym _ _ H) E') as Q. rewrite E, E' in Q. contradiction Q.
    + rewrite diacritic_not in E, E' by congruence. cbn. congruence.
    + rewrite diacritic_not in E' by congruence. discriminate E'.
  - rewrite diacritic_not in E by congruence. discriminate E.
Qed.

(** ** addTone *)

Lemma key_width k k0 s : In (k, k0) keys -> snd (decode_rune (k ++ s)%string) = String.length k.
Proof.
  intros I. unfold keys in I. cbn in I. repeat (destruct I as [E|I]; [injection E as <- <-; reflexivity|]). contradiction.
Qed.
Lemma stake_app k : forall s, stake (String.length k) (k ++ s)%string = k.
Proof. induction k as [|a k IH]; intros s; cbn; [destruct s; reflexivity|]. rewrite IH. reflexivity. Qed.
Lemma sdrop_app k : forall s, sdrop (String.length k) (k ++ s)%string = s.
Proof. induction k as [|a k IH]; intros s; cbn; [destruct s; reflexivity|]. apply IH. Qed.
Lemma tone_byte ton row : lookup (fst (decode_rune ton)) diacritic = Some row ->
  exists a s, ton = String a s /\ (byte_of a <? 0x80)%N = true /\ fst (decode_rune ton) = byte_of a.
Proof.
  intros H. apply lookup_in in H.
  assert (X : forallb (fun r : tone_row => (fst r <? 0x80)%N) diacritic = true) by (vm_compute; reflexivity).
  rewrite forallb_forall in X. specialize (X _ H). cbn [fst] in X. destruct ton as [|a s]; [vm_compute in X; discriminate X|]. exists a, s. split; [reflexivity|].
  destruct (byte_of a <? 0x80)%N eqn:E; [split; [reflexivity|]; unfold decode_rune; rewrite E; reflexivity|].
  exfalso. apply N.ltb_lt in X. apply N.ltb_ge in E. pose proof (ToneFacts.decode_high a s E). lia.
Qed.
(** The signs for tones have one case. *)
Lemma sign_same a z s : In (byte_of a) (map fst diacritic) -> alike (String a s) z -> exists s', z = String a s'.
Proof.
  intros I H. assert (X : forallb (fun b => negb (existsb (N.eqb (byte_of b)) (map fst diacritic)) ||
      (forallb (fun c => negb (Ascii.eqb (small_byte b) (small_byte c)) || Ascii.eqb b c) (map ascii_of_nat (seq 0 256)) &&
       forallb (fun p => match fst p with EmptyString => false | String c _ => negb (Ascii.eqb b c) end) swaps))%bool (map ascii_of_nat (seq 0 256)) = true) by (vm_compute; reflexivity).
  rewrite forallb_forall in X.
  assert (Q : forall b, In b (map ascii_of_nat (seq 0 256))). { intros b. apply in_map_iff. exists (nat_of_ascii b). split; [apply ascii_nat_embedding|]. apply in_seq. pose proof (nat_ascii_bounded b). lia. }
  specialize (X a (Q a)). apply orb_prop in X. destruct X as [X|X].
  { apply negb_true_iff in X. assert (Y : existsb (N.eqb (byte_of a)) (map fst diacritic) = true) by (apply existsb_exists; exists (byte_of a); split; [exact I|apply N.eqb_refl]). congruence. }
  apply andb_prop in X. destruct X as [X Y]. rewrite forallb_forall in X, Y.
  destruct (alike_inv _ _ _ H) as [(b & s' & -> & B & K)|(x & y & r & r' & J & E & Ez & K)].
  - specialize (X b (Q b)). apply orb_prop in X. destruct X as [X|X]; [apply negb_true_iff in X; rewrite B, Ascii.eqb_refl in X; discriminate X|].
    apply Ascii.eqb_eq in X. subst. eauto.
  - specialize (Y _ J). cbn [fst] in Y. destruct x as [|c x]; [discriminate Y|]. injection E as -> _. rewrite Ascii.eqb_refl in Y. discriminate Y.
Qed.
Lemma tone_same ton ton' row : alike ton ton' -> lookup (fst (decode_rune ton)) diacritic = Some row -> fst (decode_rune ton') = fst (decode_rune ton).
Proof.
  intros H L. destruct (tone_byte _ _ L) as (a & s & -> & A & E). rewrite E in L |- *. apply lookup_in in L.
  destruct (sign_same a ton' s) as (s' & ->); [apply (in_map fst) in L; exact L|exact H|]. unfold decode_rune. rewrite A. reflexivity.
Qed.
Lemma add_ok d d' t t' x : alike d d' -> alike t t' -> add_tone d t = Ok x -> exists y, add_tone d' t' = Ok y /\ alike x y.
Proof.
  intros D T H. unfold add_tone in H |- *. destruct (diacritic_of (fst (decode_rune t)) (stake (snd (decode_rune d)) d)) as [f|q|] eqn:E; try discriminate H. cbn in H. injection H as <-.
  assert (S : fst (decode_rune t') = fst (decode_rune t)).
  { unfold diacritic_of in E. destruct (lookup (fst (decode_rune t)) diacritic) as [row|] eqn:L; [|discriminate E]. eapply tone_same; eauto. }
  rewrite S. destruct (diacritic_key _ _ _ E) as (k0 & K). remember (stake (snd (decode_rune d)) d) as k eqn:Ek.
  assert (F : d = (k ++ sdrop (snd (decode_rune d)) d)%string) by (subst k; symmetry; apply stake_sdrop).
  remember (sdrop (snd (decode_rune d)) d) as r eqn:Er. rewrite F in D. destruct (key_split _ _ _ _ K D) as (k' & r' & -> & R & J).
  rewrite (key_width _ _ r' (keys_sym _ _ J)), stake_app, sdrop_app. pose proof (diacritic_keys (fst (decode_rune t)) _ _ J) as Q. rewrite E in Q.
  destruct (diacritic_of (fst (decode_rune t)) k') as [g|q|]; cbn in Q; try contradiction. exists (g ++ r')%string. split; [reflexivity|]. apply alike_app; assumption.
Qed.
Lemma add_not d t : (forall x, add_tone d t <> Ok x) -> add_tone d t = Panic PRuntime.
Proof.
  unfold add_tone. intros H. destruct (diacritic_of _ _) as [f|q|] eqn:E; [contradiction (H (f ++ sdrop (snd (decode_rune d)) d)%string); reflexivity| |];
    rewrite diacritic_not in E by congruence; [cbn; congruence|discriminate E].
Qed.
Lemma add_alike d d' t t' : alike d d' -> alike t t' -> like_res alike (add_tone d t) (add_tone d' t').
Proof.
  intros D T. destruct (add_tone d t) as [f|q|] eqn:E.
  - destruct (add_ok _ _ _ _ _ D T E) as (y & -> & Y). exact Y.
  - destruct (add_tone d' t') as [g|q'|] eqn:E'.
    + destruct (add_ok _ _ _ _ _ (alike_sym _ _ D) (alike_sym _ _ T) E') as (y & Y & _). congruence.
    + rewrite add_not in E, E' by congruence. cbn. congruence.
    + rewrite add_not in E' by congruence. discriminate E'.
  - rewrite add_not in E by congruence. discriminate E.
Qed.
Lemma dotless_alike l l' : alike l l' -> alike (if String.eqb l "i" then "ı" else l) (if String.eqb l' "i" then "ı" else l').
Proof.
  assert (P : forall l l', alike l l' -> String.eqb l "i" = true -> alike (if String.eqb l "i" then "ı" else l) (if String.eqb l' "i" then "ı" else l')).
  { intros a b H E. apply String.eqb_eq in E. subst a. change "i" with ("i" ++ "")%string in H. destruct (key_split "i" "i" "" b) as (k' & s' & -> & N & J); [cbn; tauto|exact H|].
    apply alike_nil in N. subst s'. rewrite sapp_nil_r. assert (K : k' = "i" \/ k' = "I").
    { assert (X : forallb (fun p => negb (String.eqb (fst p) "i") || String.eqb (snd p) "i" || String.eqb (snd p) "I")%bool keys = true) by (vm_compute; reflexivity).
      rewrite forallb_forall in X. specialize (X _ J). cbn [fst snd] in X. apply orb_prop in X. destruct X as [X|X]; [left|right]; apply String.eqb_eq, X. }
    destruct K as [->| ->]; [apply alike_refl|]. change (alike ("ı" ++ "") ("I" ++ ""))%string. apply KSwap; [cbn; auto|constructor]. }
  intros H. destruct (String.eqb l "i") eqn:E; [specialize (P _ _ H E); rewrite E in P; exact P|].
  destruct (String.eqb l' "i") eqn:E'; [|exact H]. specialize (P _ _ (alike_sym _ _ H) E'). rewrite E, E' in P. apply alike_sym, P.
Qed.
