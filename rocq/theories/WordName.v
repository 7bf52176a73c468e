(** The names of predicates are words. *)

From Coq Require Import String Ascii NArith List Bool Lia.
From Verif Require Import Base Utf8 Utf8Facts Tone ToneSpec ToneFacts PegSyntax Ast Parser SpellFacts Logic LogicWords LogicSpec Meaning Shown WordShape WordSpell PegText.
From Verif Require AstSorts.
Import ListNotations.
Open Scope list_scope.
Open Scope nat_scope.

Definition low (r : N) : Prop := (97 <= r <= 122)%N.
Definition asciib (r : N) : bool := (((65 <=? r) && (r <=? 90)) || ((97 <=? r) && (r <=? 122)))%N.
(** A letter or a sign of tone. *)
Definition out_ok (r : N) : Prop := asciib r = true \/ marker r.

Lemma loop_out rs : forall t, (t = 0 \/ marker t)%N -> Forall rune_ok rs -> Forall (fun r => (r < 128)%N -> out_ok r) (to_ascii_loop tables0 t rs).
Proof.
  induction rs as [|r rs IH]; intros t T F; cbn [to_ascii_loop].
  - destruct (N.eqb_spec t no_tone); [constructor|]. constructor; [|constructor]. intros _. right. destruct T; [contradiction|assumption].
  - inversion F as [|? ? O F']; subst. assert (Rok : (r < 128)%N -> out_ok r).
    { intros L. left. destruct O as [P|P]; [|apply toned_ge in P; lia]. unfold plainb in P. apply orb_prop in P. destruct P as [P|P]; [exact P|apply N.eqb_eq in P; lia]. }
    destruct (N.eqb_spec r (rune_of "ı")); [constructor; [intros _; left; reflexivity|auto]|].
    destruct (N.eqb_spec t no_tone) as [->|Nt]; cbn [negb].
    + destruct (N.eqb_spec (Tone.tone_of tables0 r) no_tone) as [E|E]; cbn [negb]; constructor; auto.
      * intros _. left. destruct (tone_of_cases r) as [[X _]|[_ X]]; [contradiction|]. apply toned_facts in X. destruct X as (_ & _ & _ & _ & _ & _ & _ & X).
        assert (C : forallb asciib (runes "aeiouAEIOU") = true) by (vm_compute; reflexivity). rewrite forallb_forall in C. exact (C _ X).
      * apply IH; [|exact F']. right. destruct (tone_of_cases r) as [[X _]|[_ X]]; [contradiction|]. apply toned_facts in X. tauto.
    + destruct T as [->|T]; [destruct (Nt eq_refl)|]. destruct (_ && _); constructor; auto. intros _. right. exact T.
Qed.

Section Names.
Variable U : unicode.
Hypothesis PU : plain_unicode U.

Definition kept (r : N) : list N :=
  (if r =? rune_of "v" then [] else if r =? rune_of "ı" then [rune_of "i"] else if u_letter U r then [r] else [])%N.

Lemma marker_cases r : marker r -> In r [45; 47; 86; 63; 94; 92; 126]%N.
Proof. intros H. exact H. Qed.

Lemma lower_out r : out_ok r -> valid_rune (u_lower U r) = true /\ Forall low (kept (u_lower U r)).
Proof.
  intros [A|M].
  - unfold asciib in A. assert (R : (r < 128)%N) by (apply orb_prop in A; destruct A as [A|A]; apply andb_prop in A; destruct A as [A B]; apply N.leb_le in A, B; lia).
    destruct (proj2 PU r R) as [L _]. assert (Q : low (u_lower U r)).
    { rewrite L. unfold low. apply orb_prop in A. destruct A as [A|A]; [rewrite A|]; apply andb_prop in A; destruct A as [A B]; apply N.leb_le in A, B; [lia|].
      replace ((65 <=? r) && (r <=? 90))%N with false; [lia|]. symmetry. apply andb_false_iff. right. apply N.leb_gt. lia. }
    split; [apply valid_rune_spec; unfold low in Q; lia|]. unfold kept. destruct (N.eqb_spec (u_lower U r) (rune_of "v")); [constructor|].
    destruct (N.eqb_spec (u_lower U r) (rune_of "ı")) as [E|_]; [unfold low in Q; change (rune_of "ı") with 305%N in E; lia|]. destruct (u_letter U _); repeat constructor; apply Q.
  - apply marker_cases in M. repeat (destruct M as [<-|M]; [destruct (proj2 PU 45%N eq_refl), (proj2 PU 47%N eq_refl), (proj2 PU 86%N eq_refl), (proj2 PU 118%N eq_refl), (proj2 PU 63%N eq_refl), (proj2 PU 94%N eq_refl), (proj2 PU 92%N eq_refl), (proj2 PU 126%N eq_refl)|]); [..|destruct M].
    all: repeat match goal with H : u_lower U ?n = _ |- _ => cbn in H; rewrite H in *; clear H end; (split; [reflexivity|]); unfold kept; cbn; repeat match goal with H : u_letter U ?n = _ |- _ => cbn in H; rewrite H; clear H end; repeat constructor.
Qed.

Lemma lows_name l : Forall low l -> every_char is_lower (of_runes l) = true.
Proof.
  induction 1 as [|r l L F IH]; [reflexivity|]. cbn [of_runes]. rewrite encode_ascii by (unfold low in L; lia). cbn [String.append every_char]. rewrite IH.
  unfold is_lower. rewrite byte_of_byte by (unfold low in L; lia). unfold low in L. apply andb_true_iff. split; [|reflexivity]. apply andb_true_iff. split; apply N.leb_le; lia.
Qed.

Lemma word_like_name s : word_like s -> word_name (word_pred U s) = true.
Proof.
  intros (a & -> & St & Ok & Se).
  assert (Va := ok_valid _ Ok).
  assert (Tq : Forall toaq_rune a).
  { eapply Forall_impl; [|exact Ok]. intros r [P|T]; [|right; right; exact T]. unfold plainb in P. apply orb_prop in P. destruct P as [P|P]; [|right; left; apply N.eqb_eq in P; exact P].
    left. apply orb_prop in P. destruct P as [H|H]; apply andb_prop in H; destruct H as [A B]; apply N.leb_le in A, B; lia. }
  set (o := to_ascii_loop tables0 no_tone a).
  assert (Ao : Forall (fun r => (r < 128)%N) o) by (apply (proj1 (loop_ascii_iff a Tq)), Se).
  assert (Oo : Forall out_ok o).
  { assert (X := loop_out a no_tone (or_introl eq_refl) Ok). fold o in X. rewrite Forall_forall in *. intros r I. apply X; [exact I|apply Ao, I]. }
  unfold word_pred. unfold to_ascii, to_ascii_with, to_lower. rewrite (runes_back a Va). fold o.
  assert (Vo : valid o) by (revert Ao; apply Forall_impl; intros r L; apply valid_rune_spec; lia).
  rewrite (runes_back o Vo).
  assert (Vl : valid (map (u_lower U) o)) by (apply Forall_map; revert Oo; apply Forall_impl; intros r R; apply lower_out, R).
  rewrite (runes_back _ Vl). fold kept. set (n := flat_map kept (map (u_lower U) o)).
  assert (Ln : Forall low n).
  { unfold n. clearbody o. clear -Oo PU. induction Oo as [|r o R F IH]; [constructor|]. cbn [map flat_map]. apply Forall_app. split; [apply lower_out, R|exact IH]. }
  assert (H1 : exists r0 n', n = r0 :: n' /\ (r0 <= 116)%N).
  { destruct a as [|r a]; [destruct St|]. cbn [starts] in St. assert (Q : exists o', o = r :: o').
    { unfold o. rewrite loop_plain; [eauto|intros ->; discriminate St|apply plain_untoned, consb_plain, St]. }
    destruct Q as (o' & Eo). unfold n. rewrite Eo. cbn [map flat_map]. apply mem_in in St.
    assert (C : forallb (fun x => ((65 <=? x) && (x <=? 90) || (97 <=? x) && (x <=? 122))%N && negb (x =? 118)%N && negb (x =? 86)%N && (((65 <=? x) && (x <=? 84)) || ((97 <=? x) && (x <=? 116)))%N) (runes "bcdfghjklmnprstBCDFGHJKLMNPRST") = true) by (vm_compute; reflexivity).
    rewrite forallb_forall in C. specialize (C _ St). rewrite !andb_true_iff, !negb_true_iff, !orb_true_iff, !andb_true_iff, !N.leb_le, !N.eqb_neq in C. destruct C as [[[C1 C2] C3] C4].
    assert (R : (r < 128)%N) by lia. destruct (proj2 PU r R) as [L _]. set (x := u_lower U r) in *.
    assert (X : (97 <= x <= 116)%N).
    { rewrite L. destruct C4 as [C4|C4].
      - replace ((65 <=? r) && (r <=? 90))%N with true; [lia|]. symmetry. apply andb_true_iff. split; apply N.leb_le; lia.
      - replace ((65 <=? r) && (r <=? 90))%N with false; [lia|]. symmetry. apply andb_false_iff. right. apply N.leb_gt. lia. }
    destruct (proj2 PU x ltac:(lia)) as [_ Le]. exists x, (flat_map kept (map (u_lower U) o')). split; [|lia]. 
    assert (K : kept x = [x]); [|rewrite K; reflexivity]. unfold kept. destruct (N.eqb_spec x (rune_of "v")) as [E|_]; [change (rune_of "v") with 118%N in E; lia|].
    destruct (N.eqb_spec x (rune_of "ı")) as [E|_]; [change (rune_of "ı") with 305%N in E; lia|]. rewrite Le. replace (((65 <=? x) && (x <=? 90)) || ((97 <=? x) && (x <=? 122)))%N with true; [reflexivity|].
    symmetry. apply orb_true_iff. right. apply andb_true_iff. split; apply N.leb_le; lia. }
  destruct (String.eqb _ "mea"); [reflexivity|]. destruct (String.eqb _ "jeqtu"); [reflexivity|].
  change (fun r : N => _) with kept. fold n. destruct H1 as (r0 & n' & E & B). unfold word_name. apply orb_true_iff. right. rewrite E in *.
  assert (Z := lows_name _ Ln). cbn [of_runes] in *. inversion Ln; subst. rewrite encode_ascii in * by (unfold low in *; lia). cbn [String.append] in *. rewrite Z.
  rewrite byte_of_byte by (unfold low in *; lia). apply andb_true_iff. split; [apply N.leb_le; lia|reflexivity].
Qed.
End Names.
