(** simplify simplifies formulas. *)

From Coq Require Import String NArith List Bool Arith Lia.
From Verif Require Import Base PegSyntax Ast AstSorts Logic LogicWords LogicSpec ScopeSpec Simplify OrderFacts SeqFacts TermFacts ScopeFacts ScopeSimp Meaning MeaningFacts Clauses ClauseHeap ClauseHoa.
Import ListNotations.
Open Scope string_scope.
Open Scope list_scope.
Open Scope nat_scope.

(** ** Application *)

Fixpoint peel (k : nat) (l : row) (s : values) (A : form) : form * values :=
  match k, A with
  | S k', Binds _ x _ G =>
      match l with
      | Gap l' => peel k' l' ((x, None) :: s) G
      | Item a l' => peel k' l' ((x, Some a) :: s) G
      | Nil => peel k' Nil ((x, None) :: s) G
      end
  | _, _ => (A, s)
  end.
Lemma apply_peel f : forall A k l s, apply f k l s A = let (B, s') := peel k l s A in f s' B.
Proof.
  induction A as [p m|c F IHF G IHG|q x g G IHG|q x g R IHR G IHG]; intros [|k] l s; try reflexivity. cbn [peel apply]. destruct l; apply IHG.
Qed.

Section Simp.
Variable pv : list nat.
Notation simplify := (simplify pv).
Notation simple := (simple pv).
Notation simple_t := (simple_t pv).
Notation simple_r := (simple_r pv).
Notation simple_m := (simple_m pv).

Lemma simple_says s p l : simple s (Says p l) =
  let (l', s1) := simple_r s l in
  match p with
  | Simple _ => (Says p l', s1)
  | Abstract A =>
      if (params A =? 0) || negb (given_args l' =? params A) then let (A', s2) := simple s1 A in (Says (Abstract A') l', s2)
      else let (B, s2) := peel (params A) l' s1 A in simple s2 B
  end.
Proof.
  change (simple s (Says p l)) with
    (let (l', s1) := simple_r s l in
     match p with
     | Simple _ => (Says p l', s1)
     | Abstract A =>
         if (params A =? 0) || negb (given_args l' =? params A) then let (A', s2) := simple s1 A in (Says (Abstract A') l', s2)
         else apply simple (params A) l' s1 A
     end).
  destruct (simple_r s l) as [l' s1]. destruct p; [reflexivity|]. rewrite apply_peel. reflexivity.
Qed.
Lemma simple_joined s c F G : simple s (Joined c F G) = let (F', s1) := simple s F in let (G', s2) := simple s1 G in (Joined c F' G', s2).
Proof. reflexivity. Qed.
Lemma simple_binds s q x f G : simple s (Binds q x f G) = let (G', s1) := simple s G in (Binds q x f G', s1).
Proof. reflexivity. Qed.
Lemma simple_limits s q x f R G : simple s (Limits q x f R G) =
  let (R', s1) := simple s R in
  match fixes pv q R' with
  | Some (y, c) => simple ((y, Some c) :: s1) G
  | None => let (G', s2) := simple s1 G in (Limits q x f R' G', s2)
  end.
Proof. reflexivity. Qed.
Lemma simple_t_eq s a : simple_t s a =
  match a with
  | Var v => (match value s (var_number v) with Some o => o | None => Some (Var v) end, s)
  | Quoted _ _ => (Some a, s)
  | That F => let (F', s1) := simple s F in (Some (That F'), s1)
  | Several l => let (l', s1) := simple_m s l in (Some (Several l'), s1)
  end.
Proof. destruct a; reflexivity. Qed.
Lemma simple_r_eq s l : simple_r s l =
  match l with
  | Nil => (Nil, s)
  | Gap l => let (l', s1) := simple_r s l in (Gap l', s1)
  | Item a l =>
      let (o, s1) := simple_t s a in
      let (l', s2) := simple_r s1 l in
      (match o with None => Gap l' | Some a' => Item a' l' end, s2)
  end.
Proof. destruct l; reflexivity. Qed.
Lemma simple_m_eq s l : simple_m s l =
  match l with
  | Nil => (Nil, s)
  | Gap l => simple_m s l
  | Item a l =>
      let (o, s1) := simple_t s a in
      let (l', s2) := simple_m s1 l in
      (match o with None => Gap l' | Some (Several m) => row_app m l' | Some a' => Item a' l' end, s2)
  end.
Proof. destruct l; reflexivity. Qed.

(** ** Values *)

Definition value_at (h : heap) (Y : ref -> Prop) (a : ref) (t : term) : Prop := exists X, at_t h X a t /\ forall i, In i X -> Y i.
Definition values_at (h : heap) (Y : ref -> Prop) : list (nat * option ref) -> values -> Prop :=
  Forall2 (fun e v => fst e = fst v /\ optional (value_at h Y) (snd e) (snd v)).
Lemma values_weak h (Y Z : ref -> Prop) L V : values_at h Y L V -> (forall i, Y i -> Z i) -> values_at h Z L V.
Proof.
  intros H S. induction H as [|e v L V [E O] H IH]; constructor; [|exact IH]. split; [exact E|].
  destruct O as [|a t (X & A & I)]; constructor. exists X. auto.
Qed.
Lemma values_move h h' X (Y : ref -> Prop) L V : values_at h Y L V -> moves h h' X -> (forall i, In i X -> ~ Y i) -> values_at h' Y L V.
Proof.
  intros H M D. induction H as [|e v L V [E O] H IH]; constructor; [|exact IH]. split; [exact E|].
  destruct O as [|a t (Z & A & I)]; constructor. exists Z. split; [|exact I]. eapply moves_t; [exact M|exact A|]. intros i J K. eapply D, I; eassumption.
Qed.
Lemma values_find h Y L V n : values_at h Y L V ->
  optional (optional (value_at h Y)) (match find (fun p => fst p =? n) L with Some (_, a) => Some a | None => None end) (value V n).
Proof.
  unfold value. intros H. induction H as [|[m o] [m' o'] L V [E O] H IH]; cbn [find fst snd option_map] in *; [constructor|]. subst m'.
  destruct (m =? n); [constructor; exact O|exact IH].
Qed.

(** ** Parts *)

Lemma simp_property h r p : rprop h r p -> forall f s o s', x_heap s = h -> simplify f RPredicate r s = Ok (o, s') -> o = Some r /\ s' = s.
Proof.
  intros R. induction R as [r n E|r t T|r x y p q E R1 IH1 R2 IH2]; intros [|f] s o s' Hs H; try discriminate; cbn [Simplify.simplify] in H; minv H; apply get_inv in E0 || apply get_inv in E; subst h.
  - destruct E0 as [-> K]. rewrite E in K. injection K as <-. minv H. auto.
  - destruct E as [-> K]. destruct T as [r n d g E _|r n E]; rewrite E in K; injection K as <-; minv H; auto.
  - destruct E0 as [-> K]. rewrite E in K. injection K as <-. minv H. minv E0. destruct (IH1 _ _ _ _ eq_refl E1) as (-> & ->). minv E0. subst.
    minv H. minv E0. destruct (IH2 _ _ _ _ eq_refl E2) as (-> & ->). minv E0. subst. minv H. injection E0 as <-. minv H. subst. split; [reflexivity|].
    destruct s as [h L]. cbn [x_heap x_sub] in *. f_equal. clear - E. revert r E. induction h as [|c h IH]; intros [|r] E; try discriminate; cbn in *; [congruence|f_equal; auto].
Qed.

Lemma lambdas_params h : forall f r X F n, lambdas f h r = Ok n -> at_f h X r F -> n = params F.
Proof.
  induction f as [|f IH]; intros r X F n H A; [discriminate|]. cbn [lambdas] in H. inversion A; subst; match goal with K : nth_error h r = Some _ |- _ => rewrite K in H end; cbn [params].
  - injection H as <-. reflexivity.
  - injection H as <-. reflexivity.
  - destruct q; try (injection H as <-; reflexivity). destruct (lambdas f h s) as [m| |] eqn:E; try discriminate. injection H as <-. f_equal. eauto.
  - destruct q; injection H as <-; reflexivity.
Qed.

Lemma given_count h X xs l : at_r h X xs l -> length (filter (fun a : option ref => match a with Some _ => true | None => false end) xs) = given_args l.
Proof. revert h X xs. induction l as [|l IH|a l IH]; intros h X xs A; inversion A; subst; cbn; [reflexivity|eauto|f_equal; eauto]. Qed.

Lemma row_app_at h X xs l Y ys m : at_r h X xs l -> at_r h Y ys m -> at_r h (X ++ Y) (xs ++ ys) (row_app l m).
Proof.
  intros A B. revert h X xs A B. induction l as [|l IH|a l IH]; intros h X xs A B; inversion A; subst; cbn [app row_app]; [exact B|constructor; auto|].
  rewrite <- app_assoc. constructor; auto.
Qed.

(** The values that bind_args adds. *)
Lemma bind_peel : forall k args r s x s' X A Z l V (Y : ref -> Prop),
  bind_args k args r s = Ok (x, s') -> at_f (x_heap s) X r A -> at_r (x_heap s) Z args l -> (forall i, In i Z -> Y i) -> values_at (x_heap s) Y (x_sub s) V -> k = params A ->
  exists X', at_f (x_heap s') X' x (fst (peel k l V A)) /\ (forall i, cnt X' i <= cnt X i) /\ x_heap s' = x_heap s /\ values_at (x_heap s') Y (x_sub s') (snd (peel k l V A)).
Proof.
  induction k as [|k IH]; intros args r s x s' X A Z l V Y H At Ar Iz Va Ek; cbn [bind_args] in H.
  - minv H. subst. cbn [peel]. exists X. auto.
  - minv H. apply get_inv in E. destruct E as [-> E]. destruct A as [p m|c F G|q y f G|q y f R G]; try discriminate. destruct q; try discriminate. injection Ek as Ek.
    inversion At; subst. match goal with K : nth_error (x_heap s) r = Some _ |- _ => rewrite K in E end. injection E as <-. destruct args as [|o args]; [discriminate|].
    minv H. injection E as <-. inversion Ar as [|? m Z' Am|? ? t m Z1 Z2 At' Am]; subst.
    + destruct (IH _ _ _ _ _ X0 G Z m ((y, None) :: V) Y H) as (X' & A' & S & Eh & V'); cbn [x_heap x_sub] in *; try assumption; try reflexivity.
      * constructor; [|exact Va]. split; [reflexivity|constructor].
      * cbn [peel]. exists X'. split; [exact A'|]. split; [|auto]. intros i. rewrite cnt_cons. specialize (S i). lia.
    + destruct (IH _ _ _ _ _ X0 G Z2 m ((y, Some t) :: V) Y H) as (X' & A' & S & Eh & V'); cbn [x_heap x_sub] in *; try assumption; try reflexivity.
      * intros i I. apply Iz, in_or_app. auto.
      * constructor; [|exact Va]. split; [reflexivity|constructor]. exists Z1. split; [exact At'|]. intros i I. apply Iz, in_or_app. auto.
      * cbn [peel]. exists X'. split; [exact A'|]. split; [|auto]. intros i. rewrite cnt_cons. specialize (S i). lia.
Qed.

(** The value that sub adds. *)
Lemma var_cell h X r t : at_t h X r t -> exists c, nth_error h r = Some c /\ is_constant c = constant t /\ match t with Var v => exists d f, c = CVariable (var_number v) d f | _ => forall n d f, c <> CVariable n d f end.
Proof.
  intros A. inversion A; subst; try (eexists; split; [eassumption|]; split; [reflexivity|discriminate]).
  match goal with T : rthing _ _ _ |- _ => destruct T as [? n d f E N|? n E] end; (eexists; split; [exact E|]; split; [reflexivity|]; eexists _, _; reflexivity).
Qed.
Definition two (l : row) : option (term * term) := match l with Item a (Item b Nil) => Some (a, b) | _ => None end.
Lemma fixes_two q p l : two l = None -> fixes pv q (Says p l) = None.
Proof. intros E. destruct q, p as [[]|]; try reflexivity; destruct l as [|l|a [|l|b [|l|c l]]]; try reflexivity; discriminate. Qed.
Lemma two_at h X xs l : at_r h X xs l -> match xs with [Some a; Some b] => exists s t Y Z, l = Item s (Item t Nil) /\ at_t h Y a s /\ at_t h Z b t /\ X = Y ++ Z | _ => two l = None end.
Proof.
  intros A. inversion A as [|ys m Y B|a ys t m Y Z At B]; subst; [reflexivity| |].
  - destruct ys as [|[?|] [|[?|] [|? ?]]]; reflexivity.
  - inversion B as [|zs m' Y' B'|b zs t' m' Y' Z' At' B']; subst; [reflexivity|destruct zs as [|[?|] [|? ?]]; reflexivity|].
    inversion B' as [|zs' m'' Y'' B''|c zs' t'' m'' Y'' Z'' At'' B'']; subst; [|destruct zs'; reflexivity..].
    exists t, t', Y, Y'. rewrite app_nil_r. auto.
Qed.
Lemma sub_fixes q r s b s' X R V (Y : ref -> Prop) : sub pv q (Some r) s = Ok (b, s') -> at_f (x_heap s) X r R -> (forall i, In i X -> Y i) -> values_at (x_heap s) Y (x_sub s) V ->
  x_heap s' = x_heap s /\
  match fixes pv q R with
  | Some (y, c) => b = true /\ values_at (x_heap s') Y (x_sub s') ((y, Some c) :: V)
  | None => b = false /\ s' = s
  end.
Proof.
  intros H A I Va.
  assert (No : b = false /\ s' = s -> fixes pv q R = None -> x_heap s' = x_heap s /\ match fixes pv q R with Some (y, c) => b = true /\ values_at (x_heap s') Y (x_sub s') ((y, Some c) :: V) | None => b = false /\ s' = s end).
  { intros [-> ->] ->. auto. }
  unfold sub in H. minv H. apply get_inv in E. destruct E as [-> E].
  inversion A as [? x xs p l X1 X2 C Ap Al| | |]; subst; match goal with K : nth_error (x_heap s) r = Some _ |- _ => rewrite K in E end; injection E as <-.
  2,3,4: minv H; subst; apply No; [auto|destruct q; reflexivity].
  assert (Tw := two_at _ _ _ _ Al).
  destruct xs as [|[a0|] [|[a1|] [|a2 xs]]]; try (minv H; subst; apply No; [auto|apply fixes_two, Tw]). destruct Tw as (t0 & t1 & Y0 & Y1 & -> & A0 & A1 & ->).
  destruct (match q with QThe | QAll => true | _ => false end) eqn:Q.
  2:{ assert (b = false /\ s' = s) by (destruct q; try discriminate; minv H; subst; auto). apply No; [assumption|destruct q; try discriminate; reflexivity]. }
  assert (H' : (do c <- get x; match c with
      | CPred name => if negb (String.eqb name "=") then ret false
        else do cl <- get a0; do cr <- get a1;
             do o <- match cl, cr with CVariable n _ _, _ => ret (Some (n, a1, cr)) | _, CVariable n _ _ => ret (Some (n, a0, cl)) | _, _ => ret None end;
             match o with None => ret false | Some (n, a, ca) => if existsb (Nat.eqb n) pv then ret false else if is_constant ca then do _ <- substitute n (Some a); ret true else ret false end
      | _ => ret false end) s = Ok (b, s')) by (destruct q; try discriminate; exact H). clear H. rename H' into H.
  assert (Fq : fixes pv q (Says p (Item t0 (Item t1 Nil))) = fixes pv QThe (Says p (Item t0 (Item t1 Nil)))) by (destruct q; try discriminate; reflexivity).
  minv H. apply get_inv in E. destruct E as [-> Ex]. inversion Ap as [? p' Rp|? y F' Z Ey Af]; subst.
  2:{ rewrite Ey in Ex. injection Ex as <-. minv H. subst. apply No; [auto|]. rewrite Fq. reflexivity. }
  destruct Rp as [x s1 Es|x v Tv|x u w p1 p2 Es R1 R2].
  2:{ destruct Tv as [? n d f Ev N|? n Ev]; rewrite Ev in Ex; injection Ex as <-; minv H; subst; (apply No; [auto|rewrite Fq; reflexivity]). }
  2:{ rewrite Es in Ex; injection Ex as <-; minv H; subst; (apply No; [auto|rewrite Fq; reflexivity]). }
  rewrite Es in Ex. injection Ex as <-. rewrite Fq in *. cbn [fixes] in *. destruct (String.eqb s1 "="); cbn [negb] in H; [|minv H; subst; apply No; auto].
  minv H. apply get_inv in E. destruct E as [-> E0]. minv H. apply get_inv in E. destruct E as [-> E1].
  destruct (var_cell _ _ _ _ A0) as (c0 & Ec0 & K0 & V0). rewrite Ec0 in E0. injection E0 as <-. destruct (var_cell _ _ _ _ A1) as (c1 & Ec1 & K1 & V1). rewrite Ec1 in E1. injection E1 as <-.
  assert (Yes : forall n a ca tx Z (s3 : sst), (if existsb (Nat.eqb n) pv then ret false else if is_constant ca then do _ <- substitute n (Some a); ret true else ret false) s = Ok (b, s') ->
    at_t (x_heap s) Z a tx -> is_constant ca = constant tx -> (forall i, In i Z -> Y i) ->
    (match (if existsb (Nat.eqb n) pv then None else if constant tx then Some (n, tx) else None) with Some (y, c) => b = true /\ x_heap s' = x_heap s /\ values_at (x_heap s') Y (x_sub s') ((y, Some c) :: V) | None => b = false /\ s' = s end)).
  { intros n a ca tx Z s3 Hs Az Kz Iz. destruct (existsb (Nat.eqb n) pv); [minv Hs; subst; auto|]. rewrite Kz in Hs. destruct (constant tx); [|minv Hs; subst; auto].
    minv Hs. injection E as <-. minv Hs. subst. cbn [x_heap x_sub]. split; [reflexivity|]. split; [reflexivity|]. constructor; [|exact Va]. split; [reflexivity|]. constructor. exists Z. auto. }
  assert (I0 : forall i, In i Y0 -> Y i) by (intros i J; apply I; right; rewrite !in_app_iff; auto).
  assert (I1 : forall i, In i Y1 -> Y i) by (intros i J; apply I; right; rewrite !in_app_iff; auto).
  destruct t0 as [v0|s0 f0|F0|m0].
  - destruct V0 as (d & f & ->). minv H. injection E as <- <-. specialize (Yes _ _ _ _ _ s H A1 K1 I1). cbn [var_number] in *.
    destruct (if existsb (Nat.eqb (var_number v0)) pv then None else if constant t1 then Some (var_number v0, t1) else None) as [[y c]|]; [tauto|destruct Yes as [-> ->]; auto].
  - destruct t1 as [v1|s2 f1|F1|m1]; try (assert (b = false /\ s' = s) by (destruct c0, c1; try (destruct (V0 _ _ _ eq_refl)); try (destruct (V1 _ _ _ eq_refl)); minv H; injection E as <- <-; minv H; subst; auto); apply No; auto).
    destruct V1 as (d & f & ->). assert (H' : exists s3, s3 = s /\ (if existsb (Nat.eqb (var_number v1)) pv then ret false else if is_constant c0 then do _ <- substitute (var_number v1) (Some a0); ret true else ret false) s3 = Ok (b, s'))
      by (destruct c0; try (destruct (V0 _ _ _ eq_refl)); minv H; injection E as <- <-; eauto).
    destruct H' as (s3 & -> & H'). specialize (Yes _ _ _ _ _ s H' A0 K0 I0).
    destruct (if existsb (Nat.eqb (var_number v1)) pv then None else _) as [[y c]|]; [tauto|destruct Yes as [-> ->]; auto].
  - destruct t1 as [v1|s2 f1|F1|m1]; try (assert (b = false /\ s' = s) by (destruct c0, c1; try (destruct (V0 _ _ _ eq_refl)); try (destruct (V1 _ _ _ eq_refl)); minv H; injection E as <- <-; minv H; subst; auto); apply No; auto).
    destruct V1 as (d & f & ->). assert (H' : exists s3, s3 = s /\ (if existsb (Nat.eqb (var_number v1)) pv then ret false else if is_constant c0 then do _ <- substitute (var_number v1) (Some a0); ret true else ret false) s3 = Ok (b, s'))
      by (destruct c0; try (destruct (V0 _ _ _ eq_refl)); minv H; injection E as <- <-; eauto).
    destruct H' as (s3 & -> & H'). specialize (Yes _ _ _ _ _ s H' A0 K0 I0).
    destruct (if existsb (Nat.eqb (var_number v1)) pv then None else _) as [[y c]|]; [tauto|destruct Yes as [-> ->]; auto].
  - destruct t1 as [v1|s2 f1|F1|m1]; try (assert (b = false /\ s' = s) by (destruct c0, c1; try (destruct (V0 _ _ _ eq_refl)); try (destruct (V1 _ _ _ eq_refl)); minv H; injection E as <- <-; minv H; subst; auto); apply No; auto).
    destruct V1 as (d & f & ->). assert (H' : exists s3, s3 = s /\ (if existsb (Nat.eqb (var_number v1)) pv then ret false else if is_constant c0 then do _ <- substitute (var_number v1) (Some a0); ret true else ret false) s3 = Ok (b, s'))
      by (destruct c0; try (destruct (V0 _ _ _ eq_refl)); minv H; injection E as <- <-; eauto).
    destruct H' as (s3 & -> & H'). specialize (Yes _ _ _ _ _ s H' A0 K0 I0).
    destruct (if existsb (Nat.eqb (var_number v1)) pv then None else _) as [[y c]|]; [tauto|destruct Yes as [-> ->]; auto].
Qed.

(** ** Formulas *)

Definition plus (Y : ref -> Prop) (X : list ref) : ref -> Prop := fun i => Y i \/ In i X.
Definition simple_p (V : values) (p : prop) : prop * values :=
  match p with Simple _ => (p, V) | Abstract A => let (A', V') := simple V A in (Abstract A', V') end.

Definition simp_f (f : nat) : Prop := forall r s o s' X F V (Y : ref -> Prop), simplify f RStatement r s = Ok (o, s') -> at_f (x_heap s) X r F -> once X -> (forall i, In i X -> ~ Y i) -> values_at (x_heap s) Y (x_sub s) V ->
  exists r' X', o = Some r' /\ at_f (x_heap s') X' r' (fst (simple V F)) /\ (forall i, In i X' -> plus Y X i) /\
    values_at (x_heap s') (plus Y X) (x_sub s') (snd (simple V F)) /\ moves (x_heap s) (x_heap s') X.
Definition simp_p (f : nat) : Prop := forall r s o s' X p V (Y : ref -> Prop), simplify f RPredicate r s = Ok (o, s') -> at_p (x_heap s) X r p -> once X -> (forall i, In i X -> ~ Y i) -> values_at (x_heap s) Y (x_sub s) V ->
  exists r' X', o = Some r' /\ at_p (x_heap s') X' r' (fst (simple_p V p)) /\ (forall i, In i X' -> plus Y X i) /\
    values_at (x_heap s') (plus Y X) (x_sub s') (snd (simple_p V p)) /\ moves (x_heap s) (x_heap s') X.
Definition simp_t (f : nat) : Prop := forall r s o s' X a V (Y : ref -> Prop), simplify f RArgument r s = Ok (o, s') -> at_t (x_heap s) X r a -> once X -> (forall i, In i X -> ~ Y i) -> values_at (x_heap s) Y (x_sub s) V ->
  optional (value_at (x_heap s') (plus Y X)) o (fst (simple_t V a)) /\
    values_at (x_heap s') (plus Y X) (x_sub s') (snd (simple_t V a)) /\ moves (x_heap s) (x_heap s') X.

Lemma plus_app Y X Z i : plus (plus Y X) Z i -> plus Y (X ++ Z) i.
Proof. unfold plus. rewrite in_app_iff. tauto. Qed.
Lemma plus_l Y X Z i : plus Y X i -> plus Y (X ++ Z) i.
Proof. unfold plus. rewrite in_app_iff. tauto. Qed.
Lemma plus_r Y X Z i : plus Y Z i -> plus Y (X ++ Z) i.
Proof. unfold plus. rewrite in_app_iff. tauto. Qed.
Lemma plus_cons Y X r i : plus Y X i -> plus Y (r :: X) i.
Proof. unfold plus. cbn. tauto. Qed.

Lemma simp_row f : simp_t f -> forall l xs s xs' s' X V (Y : ref -> Prop), map_args (simplify f RArgument) xs s = Ok (xs', s') -> at_r (x_heap s) X xs l -> once X -> (forall i, In i X -> ~ Y i) -> values_at (x_heap s) Y (x_sub s) V ->
  exists X', at_r (x_heap s') X' xs' (fst (simple_r V l)) /\ (forall i, In i X' -> plus Y X i) /\
    values_at (x_heap s') (plus Y X) (x_sub s') (snd (simple_r V l)) /\ moves (x_heap s) (x_heap s') X.
Proof.
  intros IT. induction l as [|l IH|a l IH]; intros xs s xs' s' X V Y H A O D Va; inversion A as [|ys m Z B|x ys t m Z1 Z2 At B]; subst; rewrite simple_r_eq; cbn [map_args] in H.
  - minv H. subst. exists []. cbn [fst snd]. split; [constructor|]. split; [intros i []|]. split; [|apply moves_refl]. eapply values_weak; [exact Va|]. unfold plus. auto.
  - minv H. destruct (IH _ _ _ _ _ V Y E B O D Va) as (X' & A' & S & V' & M). minv H. subst. destruct (simple_r V l) as [l' V1]. cbn [fst snd] in *. exists X'. split; [constructor; exact A'|]. auto.
  - minv H. destruct (IT _ _ _ _ _ _ V Y E At (once_l _ _ O)) as (Oa & V1 & M1). { intros i I. apply D, in_or_app. auto. } { exact Va. }
    minv H. destruct (simple_t V a) as [o V1'] eqn:Et. cbn [fst snd] in *.
    assert (D2 : forall i, In i Z2 -> ~ plus Y Z1 i). { intros i I [K|K]; [apply (D i); [apply in_or_app; auto|exact K]|]. exact (once_apart _ _ _ O K I). }
    destruct (IH _ _ _ _ Z2 V1' (plus Y Z1) E0) as (X' & A' & S & V' & M2); [|exact (once_r _ _ O)|exact D2|exact V1|].
    { eapply moves_r; [exact M1|exact B|]. intros i I K. exact (once_apart _ _ _ O K I). }
    minv H. subst. destruct (simple_r V1' l) as [l' V2] eqn:El. cbn [fst snd] in *.
    assert (M : moves (x_heap s) (x_heap s') (Z1 ++ Z2)) by (eapply moves_trans; [exact M1|exact M2|intros i; rewrite in_app_iff; tauto]).
    assert (VV : values_at (x_heap s') (plus Y (Z1 ++ Z2)) (x_sub s') V2) by (eapply values_weak; [exact V'|intros i; apply plus_app]).
    destruct Oa as [|r' t' (W & Aw & Iw)].
    + exists X'. split; [constructor; exact A'|]. split; [intros i I; apply plus_app, S, I|]. auto.
    + exists (W ++ X'). split; [constructor; [|exact A']|]. { eapply moves_t; [exact M2|exact Aw|]. intros i I K. apply (D2 i K), Iw, I. }
      split; [|auto]. intros i. rewrite in_app_iff. intros [I|I]; [apply plus_l, Iw, I|apply plus_app, S, I].
Qed.

Lemma simp_members f : simp_t f -> forall l xs s xs' s' X V (Y : ref -> Prop), flat_args (simplify f RArgument) xs s = Ok (xs', s') -> at_r (x_heap s) X xs l -> once X -> (forall i, In i X -> ~ Y i) -> values_at (x_heap s) Y (x_sub s) V ->
  exists X', at_r (x_heap s') X' xs' (fst (simple_m V l)) /\ (forall i, In i X' -> plus Y X i) /\
    values_at (x_heap s') (plus Y X) (x_sub s') (snd (simple_m V l)) /\ moves (x_heap s) (x_heap s') X.
Proof.
  intros IT. induction l as [|l IH|a l IH]; intros xs s xs' s' X V Y H A O D Va; inversion A as [|ys m Z B|x ys t m Z1 Z2 At B]; subst; rewrite simple_m_eq; cbn [flat_args] in H.
  - minv H. subst. exists []. cbn [fst snd]. split; [constructor|]. split; [intros i []|]. split; [|apply moves_refl]. eapply values_weak; [exact Va|]. unfold plus. auto.
  - destruct (IH _ _ _ _ _ V Y H B O D Va) as (X' & A' & S & V' & M). exists X'. auto.
  - minv H. destruct (IT _ _ _ _ _ _ V Y E At (once_l _ _ O)) as (Oa & V1 & M1). { intros i I. apply D, in_or_app. auto. } { exact Va. }
    minv H. destruct (simple_t V a) as [o V1'] eqn:Et. cbn [fst snd] in *.
    assert (Ms : s1 = s0 /\ exists W, at_r (x_heap s0) W a1 (match o with None => Gap Nil | Some (Several m) => m | Some a' => Item a' Nil end) /\ forall i, In i W -> plus Y Z1 i).
    { destruct Oa as [|r' t' (W & Aw & Iw)].
      - minv E0. subst. split; [reflexivity|]. exists []. split; [repeat constructor|intros i []].
      - minv E0. apply get_inv in E1. destruct E1 as [-> K]. inversion Aw; subst.
        + destruct (var_cell _ _ _ _ Aw) as (c & Ec & _ & d & g & ->). rewrite Ec in K. injection K as <-. minv E0. subst. split; [reflexivity|]. exists []. split; [apply (AtItem _ _ _ _ _ [] []); [exact Aw|constructor]|intros i []].
        + match goal with K' : nth_error _ r' = Some _ |- _ => rewrite K' in K end. injection K as <-. minv E0. subst. split; [reflexivity|]. exists []. split; [apply (AtItem _ _ _ _ _ [] []); [exact Aw|constructor]|intros i []].
        + match goal with K' : nth_error _ r' = Some _ |- _ => rewrite K' in K end. injection K as <-. minv E0. subst. split; [reflexivity|]. exists ((r' :: X) ++ []). split; [constructor; [exact Aw|constructor]|rewrite app_nil_r; exact Iw].
        + match goal with K' : nth_error _ r' = Some _ |- _ => rewrite K' in K end. injection K as <-. minv E0. subst. split; [reflexivity|]. exists X. split; [assumption|]. intros i I. apply Iw. right. exact I. }
    destruct Ms as (-> & W & Aw & Iw). minv H.
    assert (D2 : forall i, In i Z2 -> ~ plus Y Z1 i). { intros i I [K|K]; [apply (D i); [apply in_or_app; auto|exact K]|]. exact (once_apart _ _ _ O K I). }
    destruct (IH _ _ _ _ Z2 V1' (plus Y Z1) E1) as (X' & A' & S & V' & M2); [|exact (once_r _ _ O)|exact D2|exact V1|].
    { eapply moves_r; [exact M1|exact B|]. intros i I K. exact (once_apart _ _ _ O K I). }
    minv H. subst. destruct (simple_m V1' l) as [l' V2] eqn:El. cbn [fst snd] in *.
    assert (M : moves (x_heap s) (x_heap s') (Z1 ++ Z2)) by (eapply moves_trans; [exact M1|exact M2|intros i; rewrite in_app_iff; tauto]).
    assert (VV : values_at (x_heap s') (plus Y (Z1 ++ Z2)) (x_sub s') V2) by (eapply values_weak; [exact V'|intros i; apply plus_app]).
    exists (W ++ X'). split; [|split; [intros i; rewrite in_app_iff; intros [I|I]; [apply plus_l, Iw, I|apply plus_app, S, I]|auto]].
    assert (G : at_r (x_heap s') (W ++ X') (a1 ++ a2) (row_app (match o with None => Gap Nil | Some (Several m) => m | Some a' => Item a' Nil end) l')).
    { apply row_app_at; [|exact A']. eapply moves_r; [exact M2|exact Aw|]. intros i I K. apply (D2 i K), Iw, I. }
    destruct o as [[]|]; exact G.
Qed.

Lemma node_inv f k x s y s' : (do o <- simplify f k x; match o with Some y => ret y | None => crash end) s = Ok (y, s') -> simplify f k x s = Ok (Some y, s').
Proof. intros H. minv H. destruct a; [|discriminate]. minv H. subst. exact E. Qed.

Lemma put_state (s : sst) r c u s' : Simplify.set r c s = Ok (u, s') -> x_heap s' = set_nth r c (x_heap s) /\ x_sub s' = x_sub s.
Proof. intros H. inversion H. subst. split; reflexivity. Qed.

Lemma simp_all f : simp_f f /\ simp_p f /\ simp_t f.
Proof.
  induction f as [|f (IHf & IHp & IHt)]; [split; [|split]; repeat intro; discriminate|]. split; [|split].
  - intros r s o s' X F V Y H A O D Va. inversion A; subst; cbn [Simplify.simplify] in H; minv H; apply get_inv in E; destruct E as [-> E]; match goal with K : nth_error (x_heap s) r = Some _ |- _ => rewrite K in E end; injection E as <-.
    + (* predication *)
      rename H0 into C, H1 into Ap, H2 into Al, X0 into X, Y0 into Z. rewrite simple_says.
      assert (Oz : once Z) by exact (once_r _ _ (once_tl _ _ O)). assert (Ox : once X) by exact (once_l _ _ (once_tl _ _ O)).
      assert (Dz : forall i, In i Z -> ~ Y i) by (intros i I; apply D; right; apply in_or_app; auto).
      assert (Dx : forall i, In i X -> ~ Y i) by (intros i I; apply D; right; apply in_or_app; auto).
      assert (Rz : ~ plus Y Z r). { intros [K|K]; [apply (D r (or_introl eq_refl) K)|]. apply (once_hd _ _ O), in_or_app. auto. }
      assert (Rx : ~ In r X) by (intros K; apply (once_hd _ _ O), in_or_app; auto).
      assert (XZ : forall i, In i X -> ~ In i Z) by (intros i; apply (once_apart _ _ i (once_tl _ _ O))).
      minv H. destruct (simp_row f IHt _ _ _ _ _ _ V Y E Al Oz Dz Va) as (Z' & Al1 & S1 & V1 & M1). destruct (simple_r V l) as [l' W1] eqn:El. cbn [fst snd] in *.
      assert (C1 : nth_error (x_heap s0) r = Some (CPredication x xs)). { eapply moves_cell; [exact M1|exact C|]. intros K. apply Rz. right. exact K. }
      minv H. apply put_state in E0. destruct E0 as [Eh Es]. rename s1 into s2.
      assert (Mp := moves_put _ _ _ (CPredication x a) C1 eq_refl eq_refl eq_refl). rewrite <- Eh in Mp.
      assert (Al2 : at_r (x_heap s2) Z' a l'). { eapply moves_r; [exact Mp|exact Al1|]. intros i I [<-|[]]. apply Rz, S1, I. }
      assert (V2 : values_at (x_heap s2) (plus Y Z) (x_sub s2) W1). { rewrite Es. eapply values_move; [exact V1|exact Mp|]. intros i [<-|[]]. exact Rz. }
      assert (M2 : moves (x_heap s) (x_heap s2) (r :: Z)). { eapply moves_trans; [exact M1|exact Mp|]. cbn. tauto. }
      assert (Ap2 : at_p (x_heap s2) X x p). { eapply moves_p; [exact M2|exact Ap|]. intros i I [<-|K]; [exact (Rx I)|exact (XZ _ I K)]. }
      assert (C2 : nth_error (x_heap s2) r = Some (CPredication x a)). { rewrite Eh. apply set_nth_same. eapply nth_lt, C1. }
      assert (Dx2 : forall i, In i X -> ~ plus Y Z i). { intros i I [K|K]; [exact (Dx _ I K)|exact (XZ _ I K)]. }
      clear E V1 M1 Al1 C1 Mp Eh Es Va Al C Ap.
      assert (Plain : forall y s3 s4 u, simplify f RPredicate x s2 = Ok (Some y, s3) -> Simplify.set r (CPredication y a) s3 = Ok (u, s4) ->
        exists X', at_f (x_heap s4) X' r (Says (fst (simple_p W1 p)) l') /\ (forall i, In i X' -> plus Y (r :: X ++ Z) i) /\
          values_at (x_heap s4) (plus Y (r :: X ++ Z)) (x_sub s4) (snd (simple_p W1 p)) /\ moves (x_heap s) (x_heap s4) (r :: X ++ Z)).
      { intros y s3 s4 u Hp Hs. destruct (IHp _ _ _ _ _ _ W1 (plus Y Z) Hp Ap2 Ox Dx2 V2) as (y' & X' & Ey & Ap3 & S3 & V3 & M3). injection Ey as <-.
        apply put_state in Hs. destruct Hs as [Eh Es].
        assert (C3 := moves_cell _ _ _ _ _ M3 C2 Rx). assert (Mp := moves_put _ _ _ (CPredication y a) C3 eq_refl eq_refl eq_refl). rewrite <- Eh in Mp.
        assert (Rzx : ~ plus (plus Y Z) X r) by (intros [K|K]; [exact (Rz K)|exact (Rx K)]).
        exists (r :: X' ++ Z'). split; [|split; [|split]].
        - econstructor; [rewrite Eh; apply set_nth_same; eapply nth_lt, C3| |].
          + eapply moves_p; [exact Mp|exact Ap3|]. intros i I [<-|[]]. apply Rzx, S3, I.
          + eapply moves_r; [exact Mp|eapply moves_r; [exact M3|exact Al2|]|]. { intros i I K. apply (Dx2 _ K), S1, I. } intros i I [<-|[]]. apply Rz, S1, I.
        - intros i [<-|I]; [right; left; reflexivity|]. apply plus_cons. apply in_app_or in I. destruct I as [I|I]; [|apply plus_r, S1, I].
          destruct (S3 _ I) as [K|K]; [apply plus_r, K|right; apply in_or_app; auto].
        - rewrite Es. eapply values_weak; [eapply values_move; [exact V3|exact Mp|]|]. { intros i [<-|[]]. exact Rzx. }
          intros i [K|K]; apply plus_cons; [apply plus_r, K|right; apply in_or_app; auto].
        - eapply moves_trans; [exact M2|eapply moves_trans; [exact M3|exact Mp|intros i K; exact (proj2 (in_app_iff X [r] i) K)]|]. intros i. cbn. rewrite !in_app_iff. cbn. tauto. }
      minv H. apply get_inv in E. destruct E as [-> Ex]. inversion Ap2 as [? p' Rp|? y G Xg Ey Ag]; subst.
      * assert (Hp : exists y s3 u, simplify f RPredicate x s2 = Ok (Some y, s3) /\ Simplify.set r (CPredication y a) s3 = Ok (u, s') /\ o = Some r).
        { destruct Rp as [? n E|? v T|? u w p1 p2 E R1 R2]; [|destruct T as [? n d g E N|? n E]|];
            rewrite E in Ex; injection Ex as <-; minv H; apply node_inv in E0; minv H; minv H; subst; eauto 8. }
        destruct Hp as (y & s3 & u & Hp & Hs & ->). destruct (Plain _ _ _ _ Hp Hs) as (X' & R'). exists r, X'. split; [reflexivity|]. exact R'.
      * rewrite Ey in Ex. injection Ex as <-. minv H. destruct (lambdas (S f) (x_heap s2) y) as [nl| |] eqn:Ln; cbn [bind] in E; try discriminate. injection E as <- <-.
        assert (Ep := lambdas_params _ _ _ _ _ _ Ln Ag). subst nl. rewrite (given_count _ _ _ _ Al2) in H.
        destruct ((params G =? 0) || negb (given_args l' =? params G)).
        -- minv H. apply node_inv in E. minv H. minv H. subst. destruct (Plain _ _ _ _ E E0) as (X' & R'). exists r, X'. split; [reflexivity|].
           unfold simple_p in R'. destruct (simple W1 G) as [G' W2]. exact R'.
        -- minv H. destruct (bind_peel _ _ _ _ _ _ Xg G Z' l' W1 (plus Y Z) E Ag Al2 S1 V2 eq_refl) as (Xb & Ab & Cb & Eh & Vb).
           destruct (peel (params G) l' W1 G) as [B W2]. cbn [fst snd] in *.
           assert (Sb : forall i, In i Xb -> In i Xg) by (intros i; rewrite !cnt_in; specialize (Cb i); lia).
           destruct (IHf _ _ _ _ Xb B W2 (plus Y Z) H Ab) as (r' & X' & Eo & A' & S' & V' & M').
           { intros i. specialize (Cb i). specialize (Ox i). rewrite cnt_cons in Ox. lia. } { intros i I. apply Dx2. right. auto. } { exact Vb. }
           exists r', X'. split; [exact Eo|]. split; [exact A'|].
           assert (Up : forall i, plus (plus Y Z) Xb i -> plus Y (r :: (x :: Xg) ++ Z) i).
           { intros i [K|K]; apply plus_cons; [apply plus_r, K|right; apply in_or_app; left; right; auto]. }
           split; [auto|]. split; [eapply values_weak; eassumption|].
           rewrite Eh in M'. eapply moves_trans; [exact M2|exact M'|]. intros i [[K|K]|K]; [left; exact K|right; apply in_or_app; auto|right; apply in_or_app; left; right; auto].
    + (* connection *)
      rename H0 into C, H1 into A1, H2 into A2, X0 into X, Y0 into Z, F0 into F. rewrite simple_joined.
      assert (Oz : once Z) by exact (once_r _ _ (once_tl _ _ O)). assert (Ox : once X) by exact (once_l _ _ (once_tl _ _ O)).
      assert (Dx : forall i, In i X -> ~ Y i) by (intros i I; apply D; right; apply in_or_app; auto).
      assert (XZ : forall i, In i X -> ~ In i Z) by (intros i; apply (once_apart _ _ i (once_tl _ _ O))).
      assert (Dz : forall i, In i Z -> ~ plus Y X i). { intros i I [K|K]; [apply (D i); [right; apply in_or_app; auto|exact K]|exact (XZ _ K I)]. }
      assert (Ro : ~ In r (X ++ Z)) by exact (once_hd _ _ O).
      minv H. apply node_inv in E. destruct (IHf _ _ _ _ _ _ V Y E A1 Ox Dx Va) as (x' & X' & Eo & A1' & S1 & V1 & M1). injection Eo as <-. destruct (simple V F) as [F' W1]. cbn [fst snd] in *.
      minv H. apply node_inv in E0. destruct (IHf _ _ _ _ Z G W1 (plus Y X) E0) as (y' & Z' & Eo & A2' & S2 & V2 & M2); [eapply moves_f; [exact M1|exact A2|intros i I K; exact (XZ _ K I)]|exact Oz|exact Dz|exact V1|]. injection Eo as <-.
      destruct (simple W1 G) as [G' W2]. cbn [fst snd] in *. minv H. minv H. subst. apply put_state in E1. destruct E1 as [Eh Es].
      assert (M : moves (x_heap s) (x_heap s1) (X ++ Z)) by (eapply moves_trans; [exact M1|exact M2|intros i; rewrite in_app_iff; tauto]).
      assert (Rn : ~ plus Y (X ++ Z) r) by (intros [K|K]; [exact (D r (or_introl eq_refl) K)|exact (Ro K)]).
      assert (A1m : at_f (x_heap s1) X' a F') by (eapply moves_f; [exact M2|exact A1'|intros i I K; apply (Dz _ K), S1, I]).
      assert (C1 := moves_cell _ _ _ _ _ M C Ro).
      assert (Mp := moves_conn _ _ _ c _ _ _ _ _ _ C1 eq_refl eq_refl A1m A2' ltac:(intros I; apply Rn, plus_l, S1, I) ltac:(intros I; apply Rn, plus_app, S2, I)). rewrite <- Eh in Mp.
      exists r, (r :: X' ++ Z'). split; [reflexivity|]. split; [|split; [|split]].
      * econstructor; [rewrite Eh; apply set_nth_same; eapply nth_lt, C1| |].
        -- eapply moves_f; [exact Mp|eapply moves_f; [exact M2|exact A1'|]|]. { intros i I K. apply (Dz _ K), S1, I. } intros i I [<-|[]]. apply Rn, plus_l, S1, I.
        -- eapply moves_f; [exact Mp|exact A2'|]. intros i I [<-|[]]. apply Rn, plus_app, S2, I.
      * intros i [<-|I]; [right; left; reflexivity|]. apply plus_cons. apply in_app_or in I. destruct I as [I|I]; [apply plus_l, S1, I|apply plus_app, S2, I].
      * rewrite Es. eapply values_weak; [eapply values_move; [exact V2|exact Mp|]|]. { intros i [<-|[]] K. apply Rn, plus_app, K. } intros i K. apply plus_cons, plus_app, K.
      * eapply moves_trans; [exact M|exact Mp|]. intros i [K|[<-|[]]]; [right; exact K|left; reflexivity].
    + (* unrestricted binding *)
      rename H0 into C, H1 into A1, X0 into X. rewrite simple_binds.
      assert (Ro : ~ In r X) by exact (once_hd _ _ O). assert (Ry : ~ Y r) by exact (D r (or_introl eq_refl)).
      minv H. minv E. subst. minv H. apply put_state in E. destruct E as [Eh Es]. minv H. unfold sub in E. minv E. subst. minv H. apply node_inv in E.
      assert (Mp := moves_put _ _ _ (CBinding q n f0 None (Some s0)) C eq_refl eq_refl eq_refl). rewrite <- Eh in Mp.
      assert (A2 : at_f (x_heap s2) X s0 G) by (eapply moves_f; [exact Mp|exact A1|intros i I [<-|[]]; exact (Ro I)]).
      assert (V2 : values_at (x_heap s2) Y (x_sub s2) V) by (rewrite Es; eapply values_move; [exact Va|exact Mp|intros i [<-|[]]; exact Ry]).
      destruct (IHf _ _ _ _ _ _ V Y E A2 (once_tl _ _ O) (fun i I => D i (or_intror I)) V2) as (a' & X' & Eo & A3 & S3 & V3 & M3). injection Eo as <-.
      destruct (simple V G) as [G' W]. cbn [fst snd] in *. minv H. minv H. subst. apply put_state in E0. destruct E0 as [Eh' Es'].
      assert (C2 : nth_error (x_heap s2) r = Some (CBinding q n f0 None (Some s0))) by (rewrite Eh; apply set_nth_same; eapply nth_lt, C).
      assert (C3 := moves_cell _ _ _ _ _ M3 C2 Ro). assert (Mq := moves_put _ _ _ (CBinding q n f0 None (Some a)) C3 eq_refl eq_refl eq_refl). rewrite <- Eh' in Mq.
      assert (Rn : ~ plus Y X r) by (intros [K|K]; [exact (Ry K)|exact (Ro K)]).
      exists r, (r :: X'). split; [reflexivity|]. split; [|split; [|split]].
      * econstructor; [rewrite Eh'; apply set_nth_same; eapply nth_lt, C3|]. eapply moves_f; [exact Mq|exact A3|]. intros i I [<-|[]]. apply Rn, S3, I.
      * intros i [<-|I]; [right; left; reflexivity|apply plus_cons, S3, I].
      * rewrite Es'. eapply values_weak; [eapply values_move; [exact V3|exact Mq|]|]. { intros i [<-|[]]. exact Rn. } intros i. apply plus_cons.
      * eapply moves_trans; [exact Mp|eapply moves_trans; [exact M3|exact Mq|intros i K; exact (proj2 (in_app_iff X [r] i) K)]|]. intros i. cbn. rewrite in_app_iff. cbn. tauto.
    + (* restricted binding *)
      rename H0 into C, H1 into A1, H2 into A2, X0 into X, Y0 into Z. rewrite simple_limits.
      assert (Oz : once Z) by exact (once_r _ _ (once_tl _ _ O)). assert (Ox : once X) by exact (once_l _ _ (once_tl _ _ O)).
      assert (Dx : forall i, In i X -> ~ Y i) by (intros i I; apply D; right; apply in_or_app; auto).
      assert (XZ : forall i, In i X -> ~ In i Z) by (intros i; apply (once_apart _ _ i (once_tl _ _ O))).
      assert (Dz : forall i, In i Z -> ~ plus Y X i). { intros i I [K|K]; [apply (D i); [right; apply in_or_app; auto|exact K]|exact (XZ _ K I)]. }
      assert (Ro : ~ In r (X ++ Z)) by exact (once_hd _ _ O). assert (Ry : ~ Y r) by exact (D r (or_introl eq_refl)).
      assert (Rx : ~ In r X) by (intros K; apply Ro, in_or_app; auto). assert (Rz : ~ In r Z) by (intros K; apply Ro, in_or_app; auto).
      assert (Rn : ~ plus Y X r) by (intros [K|K]; [exact (Ry K)|exact (Rx K)]).
      minv H. minv E. apply node_inv in E0. minv E. subst. rename E0 into E.
      destruct (IHf _ _ _ _ _ _ V Y E A1 Ox Dx Va) as (x' & X' & Eo & A1' & S1 & V1 & M1). injection Eo as <-. destruct (simple V R) as [R' W1]. cbn [fst snd] in *.
      minv H. apply put_state in E0. destruct E0 as [Eh Es].
      match type of Eh with x_heap ?a = set_nth _ _ (x_heap ?b) => rename a into s2, b into s1 end.
      assert (C1 := moves_cell _ _ _ _ _ M1 C Rx).
      match type of Eh with _ = set_nth _ ?c _ => assert (Mp := moves_put _ _ _ c C1 eq_refl eq_refl eq_refl) end. rewrite <- Eh in Mp.
      match type of Eh with _ = set_nth _ (CBinding _ _ _ (Some ?y) _) _ => rename y into x' end.
      assert (A1s : at_f (x_heap s2) X' x' R') by (eapply moves_f; [exact Mp|exact A1'|intros i I [<-|[]]; apply Rn, S1, I]).
      assert (V1s : values_at (x_heap s2) (plus Y X) (x_sub s2) W1) by (rewrite Es; eapply values_move; [exact V1|exact Mp|intros i [<-|[]]; exact Rn]).
      assert (Ms : moves (x_heap s) (x_heap s2) (r :: X)) by (eapply moves_trans; [exact M1|exact Mp|cbn; tauto]).
      assert (A2s : at_f (x_heap s2) Z s0 G) by (eapply moves_f; [exact Ms|exact A2|intros i I [<-|K]; [exact (Rz I)|exact (XZ _ K I)]]).
      assert (Cs : nth_error (x_heap s2) r = Some (CBinding q n f0 (Some x') (Some s0))) by (rewrite Eh; apply set_nth_same; eapply nth_lt, C1).
      minv H. destruct (sub_fixes _ _ _ _ _ _ _ _ (plus Y X) E0 A1s S1 V1s) as (Ehs & Fx). destruct (fixes pv q R') as [[y c]|].
      * destruct Fx as [-> Vf]. rewrite Ehs in *.
        match type of H with simplify f RStatement s0 ?sx = _ => rename sx into s3 end.
        destruct (IHf _ _ _ _ Z G ((y, Some c) :: W1) (plus Y X) H) as (r' & Z' & Eo & A3 & S3 & V3 & M3); [rewrite Ehs; exact A2s|exact Oz|exact Dz|rewrite Ehs; exact Vf|].
        destruct (simple ((y, Some c) :: W1) G) as [G' W2]. cbn [fst snd] in *. exists r', Z'. split; [exact Eo|]. split; [exact A3|]. split; [intros i I; apply plus_cons, plus_app, S3, I|].
        split; [eapply values_weak; [exact V3|intros i K; apply plus_cons, plus_app, K]|]. rewrite Ehs in M3. eapply moves_trans; [exact Ms|exact M3|]. intros i. cbn. rewrite in_app_iff. tauto.
      * destruct Fx as [-> ->]. minv H. apply node_inv in E1.
        destruct (IHf _ _ _ _ Z G W1 (plus Y X) E1 A2s Oz Dz V1s) as (y' & Z' & Eo & A3 & S3 & V3 & M3). injection Eo as <-.
        destruct (simple W1 G) as [G' W2]. cbn [fst snd] in *. minv H. minv H. subst. apply put_state in E2. destruct E2 as [Eh' Es'].
        match type of Eh' with x_heap ?a = set_nth _ _ (x_heap ?b) => rename b into s4 end.
        assert (C4 := moves_cell _ _ _ _ _ M3 Cs Rz).
        match type of Eh' with _ = set_nth _ ?c _ => assert (Mq := moves_put _ _ _ c C4 eq_refl eq_refl eq_refl) end. rewrite <- Eh' in Mq.
        assert (Rnz : ~ plus (plus Y X) Z r) by (intros [K|K]; [exact (Rn K)|exact (Rz K)]).
        exists r, (r :: X' ++ Z'). split; [reflexivity|]. split; [|split; [|split]].
        -- econstructor; [rewrite Eh'; apply set_nth_same; eapply nth_lt, C4| |].
           ++ eapply moves_f; [exact Mq|eapply moves_f; [exact M3|exact A1s|]|]. { intros i I K. apply (Dz _ K), S1, I. } intros i I [<-|[]]. apply Rn, S1, I.
           ++ eapply moves_f; [exact Mq|exact A3|]. intros i I [<-|[]]. apply Rnz, S3, I.
        -- intros i [<-|I]; [right; left; reflexivity|]. apply plus_cons. apply in_app_or in I. destruct I as [I|I]; [apply plus_l, S1, I|apply plus_app, S3, I].
        -- rewrite Es'. eapply values_weak; [eapply values_move; [exact V3|exact Mq|]|]. { intros i [<-|[]]. exact Rnz. } intros i K. apply plus_cons, plus_app, K.
        -- eapply moves_trans; [exact Ms|eapply moves_trans; [exact M3|exact Mq|intros i K; exact (proj2 (in_app_iff Z [r] i) K)]|]. intros i. cbn. rewrite !in_app_iff. cbn. tauto.
  - intros r s o s' X p V Y H A O D Va. inversion A as [? p' Rp|? y G Xg Ey Ag]; subst.
    + destruct (simp_property _ _ _ Rp _ _ _ _ eq_refl H) as (-> & ->). exists r, []. split; [reflexivity|]. split; [exact A|]. split; [intros i []|]. cbn [simple_p snd].
      split; [|apply moves_refl]. eapply values_weak; [exact Va|]. unfold plus. auto.
    + cbn [Simplify.simplify] in H. minv H. apply get_inv in E. destruct E as [-> E]. rewrite Ey in E. injection E as <-. minv H. apply node_inv in E.
      destruct (IHf _ _ _ _ _ _ V Y E Ag (once_tl _ _ O) (fun i I => D i (or_intror I)) Va) as (y' & X' & Eo & A3 & S3 & V3 & M3). injection Eo as <-.
      cbn [simple_p]. destruct (simple V G) as [G' W]. cbn [fst snd] in *. minv H. minv H. subst. apply put_state in E0. destruct E0 as [Eh Es].
      assert (Ro : ~ In r Xg) by exact (once_hd _ _ O). assert (C3 := moves_cell _ _ _ _ _ M3 Ey Ro).
      match type of Eh with _ = set_nth _ ?c _ => assert (Mq := moves_put _ _ _ c C3 eq_refl eq_refl eq_refl) end. rewrite <- Eh in Mq.
      assert (Rn : ~ plus Y Xg r) by (intros [K|K]; [exact (D r (or_introl eq_refl) K)|exact (Ro K)]).
      exists r, (r :: X'). split; [reflexivity|]. split; [|split; [|split]].
      * econstructor; [rewrite Eh; apply set_nth_same; eapply nth_lt, C3|]. eapply moves_f; [exact Mq|exact A3|]. intros i I [<-|[]]. apply Rn, S3, I.
      * intros i [<-|I]; [right; left; reflexivity|apply plus_cons, S3, I].
      * rewrite Es. eapply values_weak; [eapply values_move; [exact V3|exact Mq|]|]. { intros i [<-|[]]. exact Rn. } intros i. apply plus_cons.
      * eapply moves_trans; [exact M3|exact Mq|]. cbn. tauto.
  - intros r s o s' X a V Y H A O D Va. rewrite simple_t_eq. cbn [Simplify.simplify] in H. minv H. apply get_inv in E. destruct E as [-> E]. inversion A as [? v T|? w g C|? y G Xg Ey Ag|? xs l Xl C Al]; subst.
    + cbn [fst snd]. assert (Wk : values_at (x_heap s) (plus Y []) (x_sub s) V) by (eapply values_weak; [exact Va|unfold plus; auto]).
      assert (Hv : exists d g, a0 = CVariable (var_number v) d g).
      { destruct (var_cell _ _ _ _ A) as (c & Ec & _ & d & g & ->). rewrite Ec in E. injection E as <-. eauto. }
      destruct Hv as (d & g & ->). minv H. unfold substituted in E0. injection E0 as <- <-. assert (Fd := values_find _ _ _ _ (var_number v) Va).
      destruct Fd as [|u w O'].
      * minv H. subst. split; [constructor; exists []; split; [exact A|intros i []]|]. split; [exact Wk|apply moves_refl].
      * minv H. subst. split; [|split; [exact Wk|apply moves_refl]]. destruct O' as [|b t (Z & Az & Iz)]; constructor. exists Z. split; [exact Az|]. unfold plus. auto.
    + rewrite C in E. injection E as <-. minv H. subst. cbn [fst snd]. split; [constructor; exists []; split; [exact A|intros i []]|]. split; [|apply moves_refl]. eapply values_weak; [exact Va|unfold plus; auto].
    + rewrite Ey in E. injection E as <-. minv H. apply node_inv in E.
      destruct (IHf _ _ _ _ _ _ V Y E Ag (once_tl _ _ O) (fun i I => D i (or_intror I)) Va) as (y' & X' & Eo & A3 & S3 & V3 & M3). injection Eo as <-.
      destruct (simple V G) as [G' W]. cbn [fst snd] in *. minv H. minv H. subst. apply put_state in E0. destruct E0 as [Eh Es].
      assert (Ro : ~ In r Xg) by exact (once_hd _ _ O). assert (C3 := moves_cell _ _ _ _ _ M3 Ey Ro).
      match type of Eh with _ = set_nth _ ?c _ => assert (Mq := moves_put _ _ _ c C3 eq_refl eq_refl eq_refl) end. rewrite <- Eh in Mq.
      assert (Rn : ~ plus Y Xg r) by (intros [K|K]; [exact (D r (or_introl eq_refl) K)|exact (Ro K)]).
      split; [|split].
      * constructor. exists (r :: X'). split; [|intros i [<-|I]; [right; left; reflexivity|apply plus_cons, S3, I]].
        econstructor; [rewrite Eh; apply set_nth_same; eapply nth_lt, C3|]. eapply moves_f; [exact Mq|exact A3|]. intros i I [<-|[]]. apply Rn, S3, I.
      * rewrite Es. eapply values_weak; [eapply values_move; [exact V3|exact Mq|]|]. { intros i [<-|[]]. exact Rn. } intros i. apply plus_cons.
      * eapply moves_trans; [exact M3|exact Mq|]. cbn. tauto.
    + rewrite C in E. injection E as <-. minv H.
      destruct (simp_members f IHt _ _ _ _ _ _ V Y E Al (once_tl _ _ O) (fun i I => D i (or_intror I)) Va) as (X' & A3 & S3 & V3 & M3).
      destruct (simple_m V l) as [l' W]. cbn [fst snd] in *. minv H. minv H. subst. apply put_state in E0. destruct E0 as [Eh Es].
      assert (Ro : ~ In r Xl) by exact (once_hd _ _ O). assert (C3 := moves_cell _ _ _ _ _ M3 C Ro).
      match type of Eh with _ = set_nth _ ?c _ => assert (Mq := moves_put _ _ _ c C3 eq_refl eq_refl eq_refl) end. rewrite <- Eh in Mq.
      assert (Rn : ~ plus Y Xl r) by (intros [K|K]; [exact (D r (or_introl eq_refl) K)|exact (Ro K)]).
      split; [|split].
      * constructor. exists (r :: X'). split; [|intros i [<-|I]; [right; left; reflexivity|apply plus_cons, S3, I]].
        econstructor; [rewrite Eh; apply set_nth_same; eapply nth_lt, C3|]. eapply moves_r; [exact Mq|exact A3|]. intros i I [<-|[]]. apply Rn, S3, I.
      * rewrite Es. eapply values_weak; [eapply values_move; [exact V3|exact Mq|]|]. { intros i [<-|[]]. exact Rn. } intros i. apply plus_cons.
      * eapply moves_trans; [exact M3|exact Mq|]. cbn. tauto.
Qed.
End Simp.
