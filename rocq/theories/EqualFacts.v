(** Equal decides whether two trees are the same except for positions. *)

From Coq Require Import String List Bool Arith.
From Verif Require Import Base PegSyntax Ast AstInd AstSorts Equal VisitSpec EqualSpec.
Import ListNotations.

Definition decides (r : res bool) (P : Prop) : Prop := exists v, r = Ok v /\ (v = true <-> P).

Lemma decides_iff r P Q : decides r P -> (P <-> Q) -> decides r Q.
Proof. intros (v & E & H) I. exists v. split; [exact E|]. tauto. Qed.

Lemma decides_and x y P Q : decides x P -> decides y Q -> decides (x &&& y) (P /\ Q).
Proof.
  intros (v & -> & H) (u & -> & K). cbn [and_then]. destruct v; [exists u; split; [reflexivity|]; tauto|].
  exists false. split; [reflexivity|]. split; [discriminate|]. intros [HP _]. tauto.
Qed.

(** Like [decides_and] when the second part may only be looked at if the first holds. *)
Lemma decides_and' x y P Q : decides x P -> (P -> decides y Q) -> decides (x &&& y) (P /\ Q).
Proof.
  intros (v & -> & H) K. cbn [and_then]. destruct v.
  - destruct K as (u & -> & K); [tauto|]. exists u. split; [reflexivity|]. tauto.
  - exists false. split; [reflexivity|]. split; [discriminate|]. intros [HP _]. tauto.
Qed.

Lemma decides_ok b P : (b = true <-> P) -> decides (Ok b) P.
Proof. intro H. exists b. split; [reflexivity|exact H]. Qed.

Lemma decides_no P : ~ P -> decides (Ok false) P.
Proof. intro H. exists false. split; [reflexivity|]. split; [discriminate|]. intro; contradiction. Qed.

Definition dec_node (a : node) : Prop := forall b, decides (equal a b) (option_map blank b = Some (blank a)).
Definition dec_word (a : word) : Prop := forall b, decides (word_equal a b) (option_map blank_word b = Some (blank_word a)).

Lemma dec_or_node a b : oall dec_node a -> decides (or_nil equal a b) (option_map blank b = option_map blank a).
Proof.
  destruct a as [a|]; cbn [oall or_nil option_map]; intro H; [apply H|]. apply decides_ok.
  destruct b; cbn; split; intro; discriminate || reflexivity.
Qed.

Lemma dec_or_word a b : oall dec_word a -> decides (or_nil word_equal a b) (option_map blank_word b = option_map blank_word a).
Proof.
  destruct a as [a|]; cbn [oall or_nil option_map]; intro H; [apply H|]. apply decides_ok.
  destruct b; cbn; split; intro; discriminate || reflexivity.
Qed.

Lemma dec_slices l : lall dec_node l -> forall l', decides (slices equal l l') (map blank l' = map blank l).
Proof.
  intros H l'. unfold slices. destruct (Nat.eqb_spec (length l) (length l')) as [E|E].
  - revert l' E. induction l as [|x l IH]; intros [|y l'] E; try discriminate E.
    + cbn. apply decides_ok. tauto.
    + cbn [each map]. cbn in H. destruct H as [H1 H2]. injection E as E.
      eapply decides_iff; [apply decides_and; [apply (H1 (Some y))|apply (IH H2 l' E)]|].
      cbn. split; [intros [A B]; congruence|]. intro A. injection A as A B. split; congruence.
  - apply decides_no. intro C. apply E. rewrite <- (map_length blank l), <- C. apply map_length.
Qed.

Lemma lall_forall {A} (P : A -> Prop) l : lall P l <-> Forall P l.
Proof.
  induction l as [|x l IH]; cbn; [split; constructor|]. rewrite IH. split; [intros []; constructor; assumption|].
  inversion 1; auto.
Qed.

Lemma lall_mp {A} (P Q : A -> Prop) l : Forall (fun x => P x -> Q x) l -> lall P l -> lall Q l.
Proof. induction 1 as [|x l H _ IH]; cbn; [tauto|]. intros []; auto. Qed.

Lemma oall_mp {A} (P Q : A -> Prop) o : onO (fun x => P x -> Q x) o -> oall P o -> oall Q o.
Proof. destruct o; cbn; auto. Qed.

Ltac dec_parts :=
  repeat match goal with
  | |- decides (_ &&& _) _ => eapply decides_and
  | |- decides (or_nil equal _ _) _ => eapply dec_or_node; eapply oall_mp; eassumption
  | |- decides (or_nil word_equal _ _) _ => eapply dec_or_word; eapply oall_mp; eassumption
  | |- decides (slices equal _ _) _ => eapply dec_slices; eapply lall_mp; eassumption
  | |- decides (Ok _) _ => eapply decides_ok; reflexivity
  | H : typed_tree ?x -> dec_node ?x |- decides (equal ?x _) _ => apply H; assumption
  | H : typed_word ?x -> dec_word ?x |- decides (word_equal ?x _) _ => apply H; assumption
  end.

Ltac dec_case :=
  first
    [ apply decides_no; cbn; discriminate
    | eapply decides_iff;
        [dec_parts
        |cbn [option_map blank blank_word]; split;
          [intros; repeat match goal with H : _ /\ _ |- _ => destruct H end; congruence
          |let X := fresh in intro X; injection X; intros; repeat split; congruence]] ].

Lemma equal_decides :
  (forall a, typed_tree a -> dec_node a) /\ (forall a, typed_word a -> dec_word a).
Proof.
  apply node_word_ind; intros;
    match goal with H : typed_tree _ |- _ => cbn [typed_tree] in H | H : typed_word _ |- _ => cbn [typed_word] in H end;
    repeat match goal with H : _ /\ _ |- _ => destruct H end; intros [b|];
    try (apply decides_no; discriminate);
    try (destruct b; cbn [equal]; dec_case; fail).
  - destruct b; cbn [equal]; try dec_case. destruct ts, ts0; cbn [nil_eq oall onO] in *; dec_case.
  - destruct b; cbn [equal]; try dec_case. destruct rel, rel0; cbn [nil_eq oall onO] in *; dec_case.
  - destruct k; try contradiction; destruct b; cbn [equal]; try dec_case;
      (destruct (copkind_eq _ k); [subst k; dec_case|apply decides_no; cbn; congruence]).
  - destruct k; try contradiction; apply decides_no; discriminate.
  - destruct k; try contradiction; destruct b; cbn [equal]; try dec_case;
      (destruct (lukind_eq _ k); [subst k; dec_case|apply decides_no; cbn; congruence]).
  - destruct k; try contradiction; apply decides_no; discriminate.
  - destruct b as [t' s' e' m']; cbn [word_equal].
    eapply decides_iff; [eapply decides_and; [apply decides_ok, String.eqb_eq|dec_parts]|].
    cbn [option_map blank_word]. split.
    + intros [-> A]. congruence.
    + intro X. injection X. intros. split; congruence.
Qed.

Lemma equal_returns a b : typed_tree a -> exists v, equal a b = Ok v.
Proof. intro H. destruct (proj1 equal_decides a H b) as (v & E & _). eauto. Qed.

Lemma equal_spec a b : typed_tree a -> (equal a (Some b) = Ok true <-> same_but_positions a b).
Proof.
  intro H. destruct (proj1 equal_decides a H (Some b)) as (v & E & S). rewrite E. unfold same_but_positions.
  cbn [option_map] in S. split.
  - intro X. injection X as ->. destruct S as [S _]. specialize (S eq_refl). congruence.
  - intro X. destruct v; [reflexivity|]. destruct S as [_ S]. exfalso. discriminate (S ltac:(congruence)).
Qed.

(** ** Which trees are typed *)

Definition raw (n : node) : Prop :=
  match n with NCoP CRaw _ _ _ _ _ | NLU LRaw _ _ => True | _ => False end.

Lemma lall_in {A} (P : A -> Prop) l x : lall P l -> In x l -> P x.
Proof. rewrite lall_forall, Forall_forall. auto. Qed.

Lemma typed_kids n : typed_tree n -> forall k, In k (kids n) -> typed_tree k \/ (raw k /\ Forall typed_tree (kids k)).
Proof.
  intros H k Hk.
  destruct n; cbn [typed_tree] in H; repeat match goal with H : _ /\ _ |- _ => destruct H end;
    try (left;
      repeat match goal with
      | o : option _ |- _ => destruct o; cbn [oall] in *
      end;
      cbn [kids maybe maybe_word app In] in Hk;
      repeat match goal with
      | H : _ \/ _ |- _ => destruct H as [<-|H]
      | H : False |- _ => destruct H
      end; try (cbn [typed_tree lall]; tauto); eapply lall_in; eassumption).
  - destruct k0; try contradiction; cbn [kids In] in Hk; destruct Hk as [<-|[]]; right; (split; [exact I|]);
      destruct to0, to1; cbn [kids maybe_word app oall] in *; repeat constructor; assumption.
  - destruct k0; try contradiction; cbn [kids In] in Hk; destruct Hk as [<-|[]]; right; (split; [exact I|]);
      cbn [kids]; repeat constructor; assumption.
  - destruct w as [t s e m]. cbn [kids w_m typed_word] in *. destruct m; cbn in *; [|contradiction].
    destruct Hk as [<-|[]]. left. exact H.
Qed.

Lemma below_typed m n : below m n -> typed_tree n -> typed_tree m \/ raw m.
Proof.
  intro H.
  assert (G : (typed_tree n \/ (raw n /\ Forall typed_tree (kids n))) -> typed_tree m \/ (raw m /\ Forall typed_tree (kids m))).
  { induction H as [|k n Hk _ IH]; [tauto|]. intros [T|[_ F]].
    - apply IH. exact (typed_kids n T k Hk).
    - apply IH. left. rewrite Forall_forall in F. apply F. exact Hk. }
  intro T. destruct (G (or_introl T)) as [?|[? _]]; tauto.
Qed.

Lemma equal_raw m b : raw m -> exists msg, equal m b = Panic (PString msg).
Proof. destruct m; cbn; try tauto; destruct k; try tauto; intros _; eauto. Qed.

Lemma on_opt_mp {A} (f : A -> bool) (P : A -> Prop) o : onO (fun x => f x = true -> P x) o -> on_opt f o = true -> oall P o.
Proof. destruct o; cbn; auto. Qed.

Lemma forallb_mp {A} (f : A -> bool) (P : A -> Prop) l : Forall (fun x => f x = true -> P x) l -> forallb f l = true -> lall P l.
Proof. induction 1 as [|x l H _ IH]; cbn; [tauto|]. intro E. apply andb_true_iff in E. destruct E; auto. Qed.

Section Sorts.
Variable lefts : copkind -> bool -> list shape.
Variable rights : copkind -> list shape.
Hypothesis no_raw : forall to, lefts CRaw to = [].

Lemma weaken_opt l o : onO (fun x => sorted lefts rights x = true -> typed_tree x) o ->
  on_opt (fun x => among l x && sorted lefts rights x) o = true -> oall typed_tree o.
Proof. destruct o; cbn; [|tauto]. intros H E. apply andb_true_iff in E. tauto. Qed.

Lemma weaken_list l d : Forall (fun x => sorted lefts rights x = true -> typed_tree x) d ->
  forallb (fun x => among l x && sorted lefts rights x) d = true -> lall typed_tree d.
Proof.
  induction 1 as [|x d H _ IH]; cbn; [tauto|]. intro E. apply andb_true_iff in E. destruct E as [E1 E2].
  apply andb_true_iff in E1. tauto.
Qed.

Lemma sorted_typed :
  (forall n, sorted lefts rights n = true -> typed_tree n) /\
  (forall w, sorted_word lefts rights w = true -> typed_word w).
Proof.
  apply node_word_ind; intros;
    match goal with H : sorted _ _ _ = true |- _ => cbn [sorted] in H | H : sorted_word _ _ _ = true |- _ => cbn [sorted_word] in H end;
    repeat match goal with H : (_ && _)%bool = true |- _ => apply andb_true_iff in H; destruct H end;
    cbn [typed_tree typed_word]; repeat split;
    try match goal with
    | H : onO (fun w => sorted_word _ _ w = true -> _) ?o |- oall typed_word ?o => eapply on_opt_mp; eassumption
    | |- oall typed_tree _ => eapply weaken_opt; eassumption
    | |- lall typed_tree _ => eapply weaken_list; eassumption
    | |- typed_tree _ => auto
    | |- typed_word _ => auto
    end.
  - destruct ts; cbn [on_opt oall onO] in *; [|exact I].
    match goal with H : (_ && _)%bool = true |- _ => apply andb_true_iff in H; destruct H end. eapply weaken_list; eassumption.
  - intros ->. match goal with H : among (lefts CRaw _) _ = true |- _ => rewrite no_raw in H; discriminate H end.
  - destruct k; [discriminate| | |]; discriminate.
  - discriminate.
Qed.
End Sorts.
