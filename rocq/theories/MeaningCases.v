(** The meaning of a concrete text. *)

From Coq Require Import String NArith List Bool Arith Lia.
From Verif Require Import Base Utf8 PegSyntax Tone Ast Parser ParserSpec AstCases Logic LogicWords LogicSpec ScopeSpec Interp Simplify LogicString LogicApi LogicCases ScopeCases Meaning.
From Verif Require AstSorts.
Import ListNotations.
Open Scope string_scope.
Open Scope list_scope.
Open Scope nat_scope.

Definition text : string := "sa do/ bi mai? poq/ maiV hoa/ do/ na suq/".
Definition meant : formula :=
  Quantified QThe 2 false (Some (Holds (Named "suq") [Some (Bound 2 false)]))
    (Quantified QSome 0 false None
      (Quantified QAll 1 false
        (Some (Both KAnd (Holds (Named "poq") [Some (Bound 1 false)])
                         (Holds (Named "mai") [Some (Bound 1 false); Some (Bound 0 false)])))
        (Holds (Named "mai") [Some (Bound 1 false); Some (Bound 2 false)]))).

Lemma unlinked_placed (l : list thing) : placed (map (fun x => (x, 0)) l) (map Some l).
Proof.
  assert (N : forall p, is_linked (map (fun x : thing => (x, 0)) l) p = false).
  { intros p. unfold is_linked. apply not_true_is_false. intros H. apply existsb_exists in H. destruct H as ((y & q) & I & E).
    apply in_map_iff in I. destruct I as (z & Z & _). injection Z as _ <-. discriminate. }
  split; [|split].
  - rewrite !map_length, map_map. cbn [list_max fold_right snd]. induction l as [|x l IH]; [reflexivity|].
    assert (X : forall m : list thing, fold_right Nat.max 0 (map (fun _ => 0) m) = 0) by (induction m; [reflexivity|assumption]). cbn. rewrite X. lia.
  - intros p x (pre & post & E & _). exfalso. assert (I : In (x, S p) (map (fun x : thing => (x, 0)) l)) by (rewrite E; apply in_elt).
    apply in_map_iff in I. destruct I as (z & Z & _). discriminate.
  - exists 0. cbn [repeat]. rewrite app_nil_r. unfold free_slots, unlinked. rewrite map_length. clear N.
    assert (U : map fst (filter (fun y : thing * nat => snd y =? 0) (map (fun x : thing => (x, 0)) l)) = l) by (induction l as [|x l IH]; cbn; [reflexivity|rewrite IH; reflexivity]).
    rewrite U. assert (N : forall p, is_linked (map (fun x : thing => (x, 0)) l) p = false).
    { intros p. unfold is_linked. apply not_true_is_false. intros H. apply existsb_exists in H. destruct H as ((y & q) & I & E).
      apply in_map_iff in I. destruct I as (z & Z & _). injection Z as _ <-. discriminate. }
    revert N. generalize (map (fun x : thing => (x, 0)) l). intros a N. clear U. generalize 0. induction l as [|x l IH]; intros i; cbn; [reflexivity|].
    rewrite N. cbn. f_equal. apply IH.
Qed.

Definition rich : formula :=
  Both KAnd (Holds (Named "poq") [Some (Bound 1 false)]) (Holds (Named "mai") [Some (Bound 1 false); Some (Bound 0 false)]).
Lemma arg_term U ol g t a st (keep : bool) f q p rel rest ts1 t1 t2 g' b x F W :
  argument U ol g t f q p rel b x g' t1 -> W = wrap b (given f && negb keep) F ->
  terms U ol g' t1 (a ++ [(x, 0)]) st keep rest F ts1 t2 ->
  terms U ol g t a st keep (NPredArg f q p rel :: rest) W (NPredArg f q p rel :: ts1) t2.
Proof. intros A -> T. econstructor; eassumption. Qed.
Lemma bare_holds U ol g t a p na P i l W t' : predicate_of U ol (c_vars g) p (t_next t) = Some (P, i) -> W = holds P l -> t' = with_next t i -> placed a l ->
  statement U ol g t a (NPredication p None na) W t'.
Proof. intros A -> -> T. constructor; assumption. Qed.
Ltac now_vm := vm_compute; reflexivity.

Lemma discourse_case t d s : discourse_of t = Some d -> fo_text t = true -> logic_string t = Ok s -> match logic_of t with Ok (Some _) => true | _ => false end = true ->
  exists r, parses t d /\ outcome ascii_unicode d (Ok (Some r)) /\ prints ascii_unicode (Some r) s /\
    forall n, In n d -> sentence_item n -> first_order ascii_unicode (o_letters diacritic) n = true.
Proof.
  intros D F S L. destruct (first_order_text _ _ F S L) as (d' & r & (lead & P) & O & Pr & Fo). exists r.
  assert (d' = d); [|subst d'; split; [exists lead; exact P|auto]].
  unfold discourse_of in D. destruct (parsed t) as [n|] eqn:Q; [|discriminate]. apply parsed_ok in Q. rewrite Q in P. injection P as ->. congruence.
Qed.

Lemma meaning_case :
  exists d t, parses text d /\ outcome ascii_unicode d (Ok (Some t)) /\
    prints ascii_unicode (Some t) "[ιS : suq(S)] ∃X [ΛP : poq(P) ∧ mai(P, X)] mai(P, S)." /\
    (forall n, In n d -> sentence_item n -> first_order ascii_unicode (o_letters diacritic) n = true) /\
    means ascii_unicode (o_letters diacritic) d meant.
Proof.
  assert (D : exists d, discourse_of text = Some d /\ means ascii_unicode (o_letters diacritic) d meant).
  { eexists. split; [vm_compute; reflexivity|].
    exists (Quantified QSome 0 false None (Quantified QAll 1 false (Some rich) (Holds (Named "mai") [Some (Bound 1 false); Some (Bound 2 false)]))),
      (State 3 [(37, 2)] [(2, Holds (Named "suq") [Some (Bound 2 false)])]). split; [|reflexivity].
    eapply ISentence; [left; do 3 eexists; reflexivity| |apply INone]. apply SStatement. eapply MPrenex.
    replace (has_text _ _ _) with false by (vm_compute; reflexivity).
    eapply arg_term with (b := Some (QSome, 0, None)) (F := Quantified QAll 1 false (Some rich) _); [|reflexivity|].
    - eapply AQuantified with (qq := QSome); [now_vm|now_vm|now_vm|apply RNone].
    - eapply TNone. eapply MTerms.
      eapply arg_term with (b := Some (QAll, 1, Some rich)) (F := Holds (Named "mai") _) (x := Bound 1 false); [|reflexivity|].
      + refine (APlain _ _ _ _ _ _ _ _ QThe _ _ (Some (Holds (Named "mai") [Some (Bound 1 false); Some (Bound 0 false)])) rich _ _ _ _ _ _ _ _ _); [now_vm|now_vm|now_vm|now_vm|discriminate|now_vm| |reflexivity].
        apply RSome, CPredicationR. eapply MTerms. eapply arg_term with (b := None); [apply AHoa; now_vm|reflexivity|].
        eapply arg_term with (b := None); [eapply AVariable; now_vm|reflexivity|]. eapply TNone.
        eapply bare_holds; [now_vm|reflexivity|reflexivity|]. apply (unlinked_placed [_; _]).
      + eapply arg_term with (b := None) (x := Bound 2 false); [|reflexivity|].
        * refine (APlain _ _ _ _ _ _ _ _ QThe _ _ None (Holds (Named "suq") [Some (Bound 2 false)]) _ _ _ _ _ _ _ _ _); [now_vm|now_vm|now_vm|now_vm|discriminate|now_vm| |reflexivity].
          apply RNone.
        * eapply TNone. eapply bare_holds; [now_vm|reflexivity|reflexivity|]. apply (unlinked_placed [_; _]). }
  destruct D as (d & D & M). destruct (discourse_case _ _ "[ιS : suq(S)] ∃X [ΛP : poq(P) ∧ mai(P, X)] mai(P, S)." D) as (t & P & O & Pr & Fo); [now_vm..|].
  exists d, t. auto.
Qed.
