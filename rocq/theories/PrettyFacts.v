(** pretty.String determines the value that it shows: C47. *)

From Coq Require Import String Ascii NArith List Bool Arith Lia.
From Verif Require Import Base PegSyntax Ast AstInd AstSorts App Pretty.
Import ListNotations.
Open Scope string_scope.
Open Scope list_scope.

Definition nl : ascii := ascii_of_nat 10.

Definition no_char (c : ascii) (s : string) : Prop := ~ In c (list_ascii_of_string s).
Lemma no_char_app c a b : no_char c (a ++ b)%string <-> no_char c a /\ no_char c b.
Proof.
  unfold no_char. assert (E : forall a, list_ascii_of_string (a ++ b)%string = list_ascii_of_string a ++ list_ascii_of_string b).
  { intros x. induction x as [|d x IH]; cbn; [reflexivity|now rewrite IH]. }
  rewrite E, in_app_iff. tauto.
Qed.
Lemma app_s_assoc (a b c : string) : ((a ++ b) ++ c = a ++ b ++ c)%string.
Proof. induction a as [|d a IH]; cbn; congruence. Qed.
Lemma app_s_nil (a : string) : (a ++ "")%string = a.
Proof. induction a as [|d a IH]; cbn; congruence. Qed.

(** A rest that is empty or starts with [c]. *)
Definition starts (c : ascii) (r : string) : Prop := r = ""%string \/ exists r', r = String c r'.
Lemma split_at c a a' r r' : no_char c a -> no_char c a' -> starts c r -> starts c r' -> (a ++ r)%string = (a' ++ r')%string -> a = a' /\ r = r'.
Proof.
  revert a'. induction a as [|d a IH]; intros [|d' a'] N N' S S' E; cbn in E.
  - auto.
  - exfalso. destruct S as [->|[s ->]]; [discriminate E|]. injection E as -> _. apply N'. left. reflexivity.
  - exfalso. destruct S' as [->|[s ->]]; [discriminate E|]. injection E as -> _. apply N. left. reflexivity.
  - injection E as -> E. destruct (IH a') as [-> ->]; auto; intros I; [apply N|apply N']; right; exact I.
Qed.

Lemma cancel_l (p a b : string) : (p ++ a = p ++ b)%string -> a = b.
Proof. induction p as [|c p IH]; cbn; [auto|]. intros E. injection E as E. auto. Qed.

(** The last character. *)
Fixpoint last_of (s : string) (d : ascii) : ascii := match s with "" => d | String c s' => last_of s' c end.
Lemma last_app a b d : last_of (a ++ b) d = last_of b (last_of a d).
Proof. revert d. induction a as [|c a IH]; intros d; cbn; auto. Qed.
Lemma cancel_r1 (a b : string) c : (a ++ String c "" = b ++ String c "")%string -> a = b.
Proof.
  revert b. induction a as [|d a IH]; intros [|e b] E; cbn in E.
  - reflexivity.
  - injection E as _ E. destruct b; discriminate E.
  - injection E as _ E. destruct a; discriminate E.
  - injection E as -> E. f_equal. auto.
Qed.

(** Values that can be read back: the texts made by PrettyPrint are on one line and end with
    a quote or a parenthesis; structs have a name and at least one field, and these names
    are on one line, without colon. *)
Fixpoint legible (v : value) : Prop :=
  match v with
  | GNil => True
  | GMade s => no_char nl s /\ In (last_of s "000"%char) [""""%char; ")"%char]
  | GStruct name fields =>
      no_char nl name /\ fields <> [] /\
      (fix go (l : list (string * value)) : Prop :=
         match l with [] => True | (f, x) :: l' => no_char nl f /\ no_char ":"%char f /\ legible x /\ go l' end) fields
  | GList l => (fix go (l : list value) : Prop := match l with [] => True | x :: l' => legible x /\ go l' end) l
  | GStr _ | GNum _ | GBool _ => False
  end.

Section ValueInd.
Variable P : value -> Prop.
Hypothesis HNil : P GNil.
Hypothesis HMade : forall s, P (GMade s).
Hypothesis HStr : forall s, P (GStr s).
Hypothesis HNum : forall n, P (GNum n).
Hypothesis HBool : forall b, P (GBool b).
Hypothesis HStruct : forall name fields, Forall (fun f => P (snd f)) fields -> P (GStruct name fields).
Hypothesis HList : forall l, Forall P l -> P (GList l).
Fixpoint value_ind2 (v : value) : P v :=
  match v with
  | GNil => HNil | GMade s => HMade s | GStr s => HStr s | GNum n => HNum n | GBool b => HBool b
  | GStruct name fields => HStruct name fields
      ((fix go (l : list (string * value)) : Forall (fun f => P (snd f)) l :=
          match l with [] => Forall_nil _ | f :: l' => Forall_cons f (value_ind2 (snd f)) (go l') end) fields)
  | GList l => HList l
      ((fix go (l : list value) : Forall P l := match l with [] => Forall_nil _ | x :: l' => Forall_cons x (value_ind2 x) (go l') end) l)
  end.
End ValueInd.

Definition show_fields (indent : string) : list (string * value) -> string :=
  fix go (l : list (string * value)) : string :=
    match l with
    | [] => indent
    | (f, x) :: l' => (indent ++ tab_char ++ f ++ ": " ++ show_value (indent ++ tab_char) x ++ go l')%string
    end.
Definition show_elems (indent : string) : list value -> string :=
  fix go (l : list value) : string :=
    match l with
    | [] => indent
    | x :: l' => (indent ++ tab_char ++ show_value (indent ++ tab_char) x ++ go l')%string
    end.
Lemma show_struct ind name f fs : show_value ind (GStruct name (f :: fs)) = (name ++ "{" ++ show_fields ind (f :: fs) ++ "}")%string.
Proof.
  unfold show_fields. cbn [show_value].
  assert (E : forall l, (fix go (l : list (string * value)) : string :=
     match l with [] => ind | (f, x) :: l' => (ind ++ tab_char ++ f ++ ": " ++ show_value (ind ++ tab_char) x ++ go l')%string end) l = show_fields ind l).
  { reflexivity. }
  reflexivity.
Qed.
Lemma show_list ind x l : show_value ind (GList (x :: l)) = ("[" ++ show_elems ind (x :: l) ++ "]")%string.
Proof. reflexivity. Qed.

(** What is on the first line, and what follows. *)
Definition head_of (v : value) : string :=
  match v with
  | GNil => "nil" | GMade s => s | GStruct name _ => name ++ "{" | GList [] => "[]" | GList _ => "["
  | _ => ""
  end.
Definition tail_of (ind : string) (v : value) : string :=
  match v with
  | GStruct _ fs => show_fields ind fs ++ "}"
  | GList (x :: l) => show_elems ind (x :: l) ++ "]"
  | _ => ""
  end.
Lemma show_split ind v : legible v -> show_value ind v = (head_of v ++ tail_of ind v)%string.
Proof.
  destruct v as [|s| | | |name [|f fs]|[|x l]]; cbn [legible]; try contradiction; intros H; cbn [head_of tail_of]; rewrite ?app_s_nil.
  - reflexivity.
  - reflexivity.
  - destruct H as (_ & H & _). congruence.
  - rewrite show_struct, !app_s_assoc. reflexivity.
  - reflexivity.
  - rewrite show_list. reflexivity.
Qed.
Lemma head_line v : legible v -> no_char nl (head_of v).
Proof.
  destruct v as [|s| | | |name fs|[|x l]]; cbn [legible]; try contradiction; intros H; cbn [head_of].
  - intros [E|[E|[E|[]]]]; discriminate E.
  - apply H.
  - apply no_char_app. split; [apply H|]. intros [E|[]]; discriminate E.
  - intros [E|[E|[]]]; discriminate E.
  - intros [E|[]]; discriminate E.
Qed.
Lemma starts_fields i fs : starts nl (show_fields (String nl i) fs).
Proof. destruct fs as [|[f x] fs]; right; cbn; eauto. Qed.
Lemma starts_elems i l : starts nl (show_elems (String nl i) l).
Proof. destruct l as [|x l]; right; cbn; eauto. Qed.
Lemma starts_app c a b : starts c a -> starts c b -> starts c (a ++ b)%string.
Proof. intros [->|[a' ->]] H; [exact H|right; cbn; eauto]. Qed.
Lemma starts_fields_app i fs r : starts nl (show_fields (String nl i) fs ++ r)%string.
Proof. destruct fs as [|[f x] fs]; right; cbn; eauto. Qed.
Lemma starts_elems_app i l r : starts nl (show_elems (String nl i) l ++ r)%string.
Proof. destruct l as [|x l]; right; cbn; eauto. Qed.
Lemma starts_tail i v : starts nl (tail_of (String nl i) v).
Proof.
  destruct v as [|s| | | |name fs|[|x l]]; cbn [tail_of]; try (left; reflexivity).
  - apply starts_fields_app.
  - apply starts_elems_app.
Qed.

Lemma elems_inj i r r' l : Forall (fun v => forall i v' r r', legible v -> legible v' -> starts nl r -> starts nl r' ->
    (show_value (String nl i) v ++ r)%string = (show_value (String nl i) v' ++ r')%string -> v = v' /\ r = r') l ->
  forall l', (show_elems (String nl i) l ++ "]" ++ r)%string = (show_elems (String nl i) l' ++ "]" ++ r')%string ->
    legible (GList l) -> legible (GList l') -> l = l' /\ r = r'.
Proof.
  induction 1 as [|x l Hx _ IH]; intros [|x' l'] T Lv Lv'; cbn [show_elems] in T; rewrite ?app_s_assoc in T.
  - apply cancel_l in T. injection T as ->. auto.
  - apply cancel_l in T. discriminate T.
  - apply cancel_l in T. discriminate T.
  - do 2 apply cancel_l in T. destruct Lv as (Lx & Lv), Lv' as (Lx' & Lv').
    apply Hx in T; [|assumption|assumption|apply starts_elems_app|apply starts_elems_app]. destruct T as [-> T].
    destruct (IH l' T Lv Lv') as [Q ->]. split; [congruence|reflexivity].
Qed.

Theorem show_inj v : forall i v' r r', legible v -> legible v' -> starts nl r -> starts nl r' ->
  (show_value (String nl i) v ++ r)%string = (show_value (String nl i) v' ++ r')%string -> v = v' /\ r = r'.
Proof.
  induction v as [|s| | | |name fs IH|l IH] using value_ind2; intros i v' r r' Lv Lv' S S' E;
    try (cbn in Lv; contradiction).
  all: rewrite !show_split, !app_s_assoc in E by assumption.
  all: apply (split_at nl) in E; [|apply head_line; assumption|apply head_line; assumption|apply starts_app; [apply starts_tail|assumption]|apply starts_app; [apply starts_tail|assumption]].
  all: destruct E as [H T].
  all: assert (La := f_equal (fun s => last_of s "000"%char) H).
  - destruct v' as [|s'| | | |name' fs'|[|x' l']]; cbn [legible] in Lv'; try contradiction.
    + cbn [tail_of append] in T. auto.
    + exfalso. destruct Lv' as [_ [K|[K|[]]]]; cbn [head_of] in La; rewrite <- K in La; discriminate La.
    + exfalso. cbn [head_of] in La. rewrite last_app in La. discriminate La.
    + discriminate H.
    + discriminate H.
  - destruct v' as [|s'| | | |name' fs'|[|x' l']]; cbn [legible] in Lv'; try contradiction.
    + exfalso. destruct Lv as [_ [K|[K|[]]]]; cbn [head_of] in La; rewrite <- K in La; discriminate La.
    + cbn [head_of] in H. subst s'. auto.
    + exfalso. destruct Lv as [_ [K|[K|[]]]]; cbn [head_of] in La; rewrite last_app, <- K in La; discriminate La.
    + exfalso. destruct Lv as [_ [K|[K|[]]]]; cbn [head_of] in La; rewrite <- K in La; discriminate La.
    + exfalso. destruct Lv as [_ [K|[K|[]]]]; cbn [head_of] in La; rewrite <- K in La; discriminate La.
  - destruct v' as [|s'| | | |name' fs'|[|x' l']]; cbn [legible] in Lv'; try contradiction.
    + exfalso. cbn [head_of] in La. rewrite last_app in La. discriminate La.
    + exfalso. destruct Lv' as [_ [K|[K|[]]]]; cbn [head_of] in La; rewrite last_app, <- K in La; discriminate La.
    + cbn [head_of] in H. apply cancel_r1 in H. subst name'.
      assert (Q : fs = fs' /\ r = r').
      { destruct Lv as (_ & _ & Lv). destruct Lv' as (_ & _ & Lv'). cbn [tail_of] in T. rewrite !app_s_assoc in T. clear La.
        revert fs' T Lv Lv'. induction IH as [|[f x] fs Hx _ IH]; intros [|[f' x'] fs'] T Lv Lv'; cbn [show_fields] in T; rewrite ?app_s_assoc in T.
        - apply cancel_l in T. injection T as ->. auto.
        - apply cancel_l in T. discriminate T.
        - apply cancel_l in T. discriminate T.
        - do 2 apply cancel_l in T. destruct Lv as (N1 & N2 & Lx & Lv), Lv' as (N1' & N2' & Lx' & Lv').
          apply (split_at ":"%char) in T; [|assumption|assumption|right; eexists; reflexivity|right; eexists; reflexivity]. destruct T as [-> T].
          injection T as T. apply Hx in T; [|assumption|assumption|apply starts_fields_app|apply starts_fields_app]. cbn [snd] in T. destruct T as [-> T].
          destruct (IH fs' T Lv Lv') as [-> ->]. auto. }
      destruct Q as [-> ->]. auto.
    + exfalso. cbn [head_of] in La. rewrite last_app in La. discriminate La.
    + exfalso. cbn [head_of] in La. rewrite last_app in La. discriminate La.
  - destruct v' as [|s'| | | |name' fs'|l']; cbn [legible] in Lv'; try contradiction.
    + exfalso. destruct l; discriminate La.
    + exfalso. destruct Lv' as [_ [K|[K|[]]]]; cbn [head_of] in La; rewrite <- K in La; destruct l; discriminate La.
    + exfalso. cbn [head_of] in La. rewrite last_app in La. destruct l; discriminate La.
    + destruct l as [|x l], l' as [|x' l']; try discriminate H; [auto|].
      assert (Q : x :: l = x' :: l' /\ r = r').
      { cbn [tail_of] in T. rewrite !app_s_assoc in T. exact (elems_inj i r r' _ IH _ T Lv Lv'). }
      destruct Q as [Q ->]. rewrite Q. auto.
Qed.
