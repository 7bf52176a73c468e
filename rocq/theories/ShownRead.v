(** The notation of formulas can be read. *)

From Coq Require Import Ascii String NArith List Bool Arith Lia.
From Verif Require Import Base Utf8 Logic Meaning Shown.
Import ListNotations.
Open Scope list_scope.
Open Scope nat_scope.
Open Scope string_scope.

Lemma sapp_assoc (a b c : string) : (a ++ b) ++ c = a ++ b ++ c.
Proof. induction a as [|x a IH]; cbn; [reflexivity|now rewrite IH]. Qed.
Lemma sapp_nil (a : string) : a ++ "" = a.
Proof. induction a as [|x a IH]; cbn; [reflexivity|now rewrite IH]. Qed.

(** ** The notation of shapes *)

Definition part_text (p : part) : string := match p with PName s | PVar s => s end.
Definition parts_text (p : list part) : string := String.concat "∘" (map part_text p).
Definition opt_text (empty : string) (o : option string) : string := match o with None => empty | Some s => s end.
Definition sholds_text (p : list part) (l : list (option string)) : string :=
  let prefix := parts_text p ++ "(" ++ String.concat ", " (map (opt_text "·") l) ++ ")" in
  match p, l with
  | [PName s], [x; y] => if infix s then opt_text "" x ++ s ++ opt_text "" y else prefix
  | _, _ => prefix
  end.
Definition sbare (c : conn) (A : shape) : bool :=
  match A with SHolds _ _ => true | SBoth c' _ _ => conn_eqb c' c | SQuantified _ _ _ _ => false end.
Fixpoint shape_text (A : shape) : string :=
  match A with
  | SHolds p l => sholds_text p l
  | SBoth c l r => parened (sbare c l) (shape_text l) ++ " " ++ conn_sign c ++ " " ++ parened (sbare c r) (shape_text r)
  | SQuantified q x None G => quant_sign q ++ x ++ " " ++ shape_text G
  | SQuantified q x (Some R) G => "[" ++ quant_sign q ++ x ++ " : " ++ shape_text R ++ "] " ++ shape_text G
  end.

Lemma conn_eqb_refl c : conn_eqb c c = true.
Proof. destruct c; reflexivity. Qed.
Lemma conn_eqb_eq c c' : conn_eqb c c' = true -> c = c'.
Proof. destruct c, c'; cbn; congruence. Qed.

Lemma join_bare c A B : sbare c (join c A B) = true.
Proof. destruct A; cbn; rewrite ?conn_eqb_refl; try reflexivity. destruct (conn_eqb c0 c); cbn; apply conn_eqb_refl. Qed.
Lemma join_text c B : forall A, shape_text (join c A B) = parened (sbare c A) (shape_text A) ++ " " ++ conn_sign c ++ " " ++ parened (sbare c B) (shape_text B).
Proof.
  induction A as [p l|c' A1 _ A2 IH|q x R G _]; [reflexivity| |reflexivity]. cbn [join]. destruct (conn_eqb c' c) eqn:E.
  - apply conn_eqb_eq in E. subst c'. cbn [shape_text]. rewrite join_bare. cbn [parened]. rewrite IH.
    cbn [sbare]. rewrite conn_eqb_refl. cbn [parened]. rewrite !sapp_assoc. reflexivity.
  - reflexivity.
Qed.

Section Shape.
Variable name : nat -> string.
Lemma concat_app (a b : list part) : a <> [] -> b <> [] -> parts_text (a ++ b)%list = parts_text a ++ "∘" ++ parts_text b.
Proof.
  unfold parts_text. intros A B. induction a as [|x a IH]; [congruence|]. destruct a as [|y a].
  - destruct b as [|z b]; [congruence|]. cbn. rewrite ?sapp_assoc. reflexivity.
  - change (part_text x ++ "∘" ++ String.concat "∘" (map part_text ((y :: a) ++ b)%list) = (part_text x ++ "∘" ++ String.concat "∘" (map part_text (y :: a))) ++ "∘" ++ String.concat "∘" (map part_text b)).
    rewrite IH by discriminate. rewrite !sapp_assoc. reflexivity.
Qed.
Lemma parts_nonempty p : parts name p <> [].
Proof. induction p; cbn; try discriminate. intros E. apply app_eq_nil in E. tauto. Qed.
Lemma parts_text_ok p : parts_text (parts name p) = property_text name p.
Proof.
  induction p as [s|t|l IHl r IHr]; [reflexivity..|]. cbn [parts property_text].
  rewrite concat_app by apply parts_nonempty. now rewrite IHl, IHr.
Qed.
Lemma parts_one p s : parts name p = [PName s] -> p = Named s.
Proof.
  destruct p as [n|t|l r]; cbn; intros E; [congruence|discriminate|]. exfalso.
  assert (L := parts_nonempty l). assert (R := parts_nonempty r). destruct (parts name l) as [|x a]; [congruence|]. destruct (parts name r); [congruence|]. destruct a; discriminate.
Qed.
Lemma opt_arg e o : opt_text e (option_map (thing_text name) o) = arg_text name e o.
Proof. destruct o; reflexivity. Qed.
Lemma holds_shape p l : sholds_text (parts name p) (map (option_map (thing_text name)) l) = holds_text name p l.
Proof.
  unfold sholds_text, holds_text. rewrite parts_text_ok, map_map. rewrite (map_ext _ (arg_text name "·") (opt_arg "·")).
  destruct p as [s|t|a b].
  - cbn [parts]. destruct l as [|x [|y [|z l]]]; cbn [map]; try reflexivity. rewrite !opt_arg. reflexivity.
  - reflexivity.
  - destruct (parts name (Serial a b)) as [|z l0] eqn:E; [reflexivity|]. destruct z as [s|s]; [|reflexivity]. destruct l0; [|reflexivity]. apply parts_one in E. discriminate.
Qed.
Lemma shape_operand c F : sbare c (shape_of name F) = bare_operand c F.
Proof.
  destruct F as [p l|c' l r|q x f R G]; cbn [shape_of bare_operand]; [reflexivity| |reflexivity].
  destruct (conn_eqb c' c) eqn:E; [apply conn_eqb_eq in E; subst; apply join_bare|].
  destruct (shape_of name l) as [p a|c1 A B|q x R G]; cbn; try exact E. destruct (conn_eqb c1 c'); exact E.
Qed.
Fixpoint shape_text_ok (F : formula) : shape_text (shape_of name F) = formula_text name F.
Proof.
  destruct F as [p l|c l r|q x f R G]; cbn [shape_of formula_text].
  - apply holds_shape.
  - rewrite join_text, !shape_operand, (shape_text_ok l), (shape_text_ok r). reflexivity.
  - destruct R as [R|]; cbn [shape_text]; rewrite ?(shape_text_ok R), (shape_text_ok G); reflexivity.
Qed.
End Shape.

(** ** Reading *)

Fixpoint strip (p s : string) : option string :=
  match p, s with
  | EmptyString, _ => Some s
  | String a p', String c s' => if ascii_dec a c then strip p' s' else None
  | _, _ => None
  end.
Fixpoint span (P : ascii -> bool) (s : string) : string * string :=
  match s with
  | String c t => if P c then let (a, r) := span P t in (String c a, r) else ("", s)
  | EmptyString => ("", "")
  end.
Definition read_var (s : string) : option (string * string) :=
  match s with
  | String c t => if is_upper c then let (d, r) := span is_digit t in Some (String c d, r) else None
  | EmptyString => None
  end.
Definition read_op (s : string) : option (string * string) :=
  match strip "=" s with
  | Some r => Some ("=", r)
  | None => match strip "≺" s with Some r => Some ("≺", r) | None => None end
  end.
Definition read_part (s : string) : option (part * string) :=
  match read_var s with
  | Some (v, r) => Some (PVar v, r)
  | None =>
      match read_op s with
      | Some (o, r) => Some (PName o, r)
      | None => match span is_lower s with (EmptyString, _) => None | (n, r) => Some (PName n, r) end
      end
  end.
Fixpoint read_parts (f : nat) (s : string) : option (list part * string) :=
  match f with
  | O => None
  | S f =>
      match read_part s with
      | Some (p, r) =>
          match strip "∘" r with
          | Some r' => match read_parts f r' with Some (l, r'') => Some (p :: l, r'') | None => None end
          | None => Some ([p], r)
          end
      | None => None
      end
  end.
Definition read_arg (s : string) : option (option string * string) :=
  match strip "·" s with
  | Some r => Some (None, r)
  | None => match read_var s with Some (v, r) => Some (Some v, r) | None => None end
  end.
Fixpoint read_args (f : nat) (s : string) : option (list (option string) * string) :=
  match f with
  | O => None
  | S f =>
      match strip ")" s with
      | Some r => Some ([], r)
      | None =>
          match read_arg s with
          | Some (a, r) =>
              match strip ", " r with
              | Some r' => match read_args f r' with Some (l, r'') => Some (a :: l, r'') | None => None end
              | None => match strip ")" r with Some r' => Some ([a], r') | None => None end
              end
          | None => None
          end
      end
  end.
Definition opt_var (s : string) : option string * string :=
  match read_var s with Some (v, r) => (Some v, r) | None => (None, s) end.
Definition read_prefix (f : nat) (s : string) : option (shape * string) :=
  match read_parts f s with
  | Some (p, r) =>
      match strip "(" r with
      | Some r' => match read_args f r' with Some (l, r'') => Some (SHolds p l, r'') | None => None end
      | None => None
      end
  | None => None
  end.
Definition read_holds (f : nat) (s : string) : option (shape * string) :=
  let (x, r) := opt_var s in
  match read_op r with
  | Some (o, r1) =>
      match strip "(" r1, strip "∘" r1 with
      | None, None => let (y, r2) := opt_var r1 in Some (SHolds [PName o] [x; y], r2)
      | _, _ => read_prefix f s
      end
  | None => read_prefix f s
  end.

Fixpoint one_of {A} (l : list (string * A)) (s : string) : option (A * string) :=
  match l with
  | [] => None
  | (t, a) :: l' => match strip t s with Some r => Some (a, r) | None => one_of l' s end
  end.
Definition read_quant : string -> option (quant * string) :=
  one_of [("ι", QThe); ("λ", QLambda); ("∀", QEach); ("Λ", QAll); ("∃", QSome); ("∄", QNone); ("¿", QHi)].
Definition read_conn : string -> option (conn * string) :=
  one_of [(" ∧ ", KAnd); (" ∨ ", KOr); (" ? ", KRi)].

Fixpoint read_shape (f : nat) (s : string) : option (shape * string) :=
  match f with
  | O => None
  | S f =>
      match strip "[" s with
      | Some r =>
          match read_quant r with
          | Some (q, r1) =>
              match read_var r1 with
              | Some (x, r2) =>
                  match strip " : " r2 with
                  | Some r3 =>
                      match read_shape f r3 with
                      | Some (R, r4) =>
                          match strip "] " r4 with
                          | Some r5 => match read_shape f r5 with Some (G, r6) => Some (SQuantified q x (Some R) G, r6) | None => None end
                          | None => None
                          end
                      | None => None
                      end
                  | None => None
                  end
              | None => None
              end
          | None => None
          end
      | None =>
          match read_quant s with
          | Some (q, r1) =>
              match read_var r1 with
              | Some (x, r2) =>
                  match strip " " r2 with
                  | Some r3 => match read_shape f r3 with Some (G, r4) => Some (SQuantified q x None G, r4) | None => None end
                  | None => None
                  end
              | None => None
              end
          | None =>
              (* an operand, and perhaps a connective and what it connects to *)
              match match strip "(" s with
                    | Some r =>
                        match read_shape f r with
                        | Some (A, r1) => match strip ")" r1 with Some r2 => Some (A, r2) | None => None end
                        | None => None
                        end
                    | None => read_holds f s
                    end with
              | Some (A, r) =>
                  match read_conn r with
                  | Some (c, r1) => match read_shape f r1 with Some (B, r2) => Some (SBoth c A B, r2) | None => None end
                  | None => Some (A, r)
                  end
              | None => None
              end
          end
      end
  end.

(** ** It is read back *)

Definition letter (c : ascii) : bool := is_upper c || is_lower c.
Lemma strip_app p s : strip p (p ++ s) = Some s.
Proof. induction p as [|a p IH]; cbn; [reflexivity|]. destruct (ascii_dec a a); [exact IH|congruence]. Qed.
Lemma strip_letter a p c s : letter c = true -> letter a = false -> strip (String a p) (String c s) = None.
Proof. intros C A. cbn. destruct (ascii_dec a c) as [->|]; [congruence|reflexivity]. Qed.
Lemma span_app P a s : every_char P a = true -> match s with String c _ => P c = false | EmptyString => True end -> span P (a ++ s) = (a, s).
Proof.
  intros A H. induction a as [|c a IH]; cbn in *.
  - destruct s as [|c s]; cbn; [reflexivity|now rewrite H].
  - apply andb_true_iff in A. destruct A as [-> A]. now rewrite (IH A).
Qed.

(** Not a letter or digit. *)
Definition sep (s : string) : Prop := match s with String c _ => letter c = false /\ is_digit c = false | EmptyString => True end.
(** What may follow an operand, and a formula. *)
Definition follow (s : string) : Prop := match s with String c _ => In c [" "; "."; ")"; "]"]%char | EmptyString => True end.
Definition stop (s : string) : Prop := match s with String c _ => In c ["."; ")"; "]"]%char | EmptyString => True end.
Lemma stop_follow s : stop s -> follow s.
Proof. destruct s; cbn; tauto. Qed.
Lemma follow_sep s : follow s -> sep s.
Proof. destruct s as [|c s]; [trivial|]. cbn. intros [<-|[<-|[<-|[<-|[]]]]]; split; reflexivity. Qed.
Ltac follows H := match type of H with _ ?s => destruct s as [|? ?]; [|cbn in H; repeat destruct H as [<-|H]; try destruct H as []] end.

Lemma read_var_app v s : var_name v = true -> sep s -> read_var (v ++ s) = Some (v, s).
Proof.
  destruct v as [|c v]; [discriminate|]. cbn. intros V S. apply andb_true_iff in V. destruct V as [-> V].
  rewrite span_app; [reflexivity|exact V|]. destruct s; [trivial|apply S].
Qed.
Lemma read_var_sep s : sep s -> read_var s = None.
Proof. destruct s as [|c s]; cbn; [reflexivity|]. unfold letter. intros [L _]. apply orb_false_iff in L. destruct L as [-> _]. reflexivity. Qed.
Lemma var_letter v s : var_name v = true -> exists c t, v ++ s = String c t /\ letter c = true.
Proof. destruct v as [|c v]; [discriminate|]. cbn. intros V. apply andb_true_iff in V. destruct V as [V _]. exists c, (v ++ s). unfold letter. rewrite V. auto. Qed.
Ltac headed V s := let c := fresh "c" in let t := fresh "t" in let E := fresh "E" in let L := fresh "L" in destruct (var_letter _ s V) as (c & t & E & L); rewrite E.
Lemma var_strip a p v s : var_name v = true -> letter a = false -> strip (String a p) (v ++ s) = None.
Proof. intros V A. headed V s. apply strip_letter; assumption. Qed.
Lemma read_op_letter c s : letter c = true -> read_op (String c s) = None.
Proof. intros L. unfold read_op. rewrite !strip_letter by (try assumption; reflexivity). reflexivity. Qed.
Lemma read_op_app o s : infix o = true -> read_op (o ++ s) = Some (o, s).
Proof.
  unfold infix. intros H. apply orb_true_iff in H. destruct H as [H|H]; apply String.eqb_eq in H; subst o; reflexivity.
Qed.
Definition lower_name (s : string) : bool := match s with EmptyString => false | _ => every_char is_lower s end.
Definition pred_name (s : string) : bool := infix s || lower_name s.
Definition good_part (p : part) : bool := match p with PName s => pred_name s | PVar s => var_name s end.

Lemma lower_letter n s : lower_name n = true -> exists c t, n ++ s = String c t /\ letter c = true /\ is_upper c = false.
Proof.
  destruct n as [|c n]; [discriminate|]. cbn. intros V. apply andb_true_iff in V. destruct V as [V _]. exists c, (n ++ s). unfold letter. rewrite V, orb_true_r.
  repeat split. unfold is_upper. unfold is_lower in V. apply andb_true_iff in V. destruct V as [V _]. apply N.leb_le in V. apply andb_false_iff. right. apply N.leb_gt. lia.
Qed.
Lemma infix_cases o : infix o = true -> o = "=" \/ o = "≺".
Proof. unfold infix. intros H. apply orb_true_iff in H. destruct H as [H|H]; apply String.eqb_eq in H; auto. Qed.
Lemma op_not_var o s : infix o = true -> read_var (o ++ s) = None.
Proof. intros H. apply infix_cases in H. destruct H as [->| ->]; reflexivity. Qed.
Lemma lower_not_var n s : lower_name n = true -> read_var (n ++ s) = None.
Proof. intros H. destruct (lower_letter n s H) as (c & t & -> & _ & U). cbn. now rewrite U. Qed.

Lemma read_part_app p s : good_part p = true -> sep s -> read_part (part_text p ++ s) = Some (p, s).
Proof.
  intros G S. unfold read_part. destruct p as [n|v]; cbn [good_part part_text] in *.
  - unfold pred_name in G. destruct (infix n) eqn:I.
    + rewrite op_not_var, read_op_app by exact I. reflexivity.
    + cbn in G. rewrite lower_not_var by exact G. destruct (lower_letter n s G) as (c & t & E & L & _). rewrite E at 1. rewrite read_op_letter by exact L.
      rewrite span_app; [destruct n; [discriminate|reflexivity]|destruct n; [discriminate|exact G]|]. destruct s as [|d s]; [trivial|]. destruct S as [S _]. unfold letter in S. apply orb_false_iff in S. tauto.
  - rewrite read_var_app by assumption. reflexivity.
Qed.
Lemma compose_sep s : sep ("∘" ++ s).
Proof. split; reflexivity. Qed.
Lemma read_parts_app : forall p f s, forallb good_part p = true -> p <> [] -> sep s -> strip "∘" s = None -> length p <= f ->
  read_parts f (parts_text p ++ s) = Some (p, s).
Proof.
  unfold parts_text. induction p as [|a p IH]; intros f s G N S X L; [congruence|]. destruct f as [|f]; [cbn in L; lia|]. cbn in L, G. apply andb_true_iff in G. destruct G as [Ga G].
  destruct p as [|b p].
  - cbn [map String.concat read_parts]. rewrite read_part_app by assumption. now rewrite X.
  - change (String.concat "∘" (map part_text (a :: b :: p))) with (part_text a ++ "∘" ++ String.concat "∘" (map part_text (b :: p))).
    rewrite !sapp_assoc. cbn [read_parts]. rewrite read_part_app by (try assumption; apply compose_sep). rewrite strip_app. rewrite IH; [reflexivity|exact G|discriminate|assumption|assumption|cbn in *; lia].
Qed.
Definition good_arg (o : option string) : bool := match o with None => true | Some v => var_name v end.
Lemma read_arg_app o s : good_arg o = true -> sep s -> read_arg (opt_text "·" o ++ s) = Some (o, s).
Proof.
  intros G S. unfold read_arg. destruct o as [v|]; cbn [opt_text good_arg] in *; [|rewrite strip_app; reflexivity].
  rewrite var_strip by (try assumption; reflexivity). rewrite read_var_app by assumption. reflexivity.
Qed.
Lemma arg_not_close o s : good_arg o = true -> strip ")" (opt_text "·" o ++ s) = None.
Proof. intros G. destruct o as [v|]; cbn [opt_text good_arg] in *; [apply var_strip; [exact G|reflexivity]|reflexivity]. Qed.
Lemma read_args_app : forall l f s, forallb good_arg l = true -> length l < f ->
  read_args f (String.concat ", " (map (opt_text "·") l) ++ ")" ++ s) = Some (l, s).
Proof.
  induction l as [|a l IH]; intros f s G L; (destruct f as [|f]; [cbn in L; lia|]); [reflexivity|]. cbn in L, G. apply andb_true_iff in G. destruct G as [Ga G].
  destruct l as [|b l].
  - cbn [map String.concat]. cbn [read_args]. rewrite arg_not_close by exact Ga. rewrite read_arg_app by (try assumption; split; reflexivity). reflexivity.
  - change (String.concat ", " (map (opt_text "·") (a :: b :: l))) with (opt_text "·" a ++ ", " ++ String.concat ", " (map (opt_text "·") (b :: l))).
    rewrite !sapp_assoc. cbn [read_args]. rewrite arg_not_close by exact Ga. rewrite read_arg_app by (try assumption; split; reflexivity). rewrite strip_app.
    rewrite IH; [reflexivity|exact G|cbn in *; lia].
Qed.
Lemma opt_var_app o s : good_arg o = true -> sep s -> opt_var (opt_text "" o ++ s) = (o, s).
Proof.
  intros G S. unfold opt_var. destruct o as [v|]; cbn [opt_text good_arg] in *; [rewrite read_var_app by assumption; reflexivity|].
  cbn [append]. rewrite read_var_sep by assumption. reflexivity.
Qed.

Lemma read_prefix_app p l f s : forallb good_part p = true -> p <> [] -> forallb good_arg l = true -> length p + length l < f ->
  read_prefix f (parts_text p ++ "(" ++ String.concat ", " (map (opt_text "·") l) ++ ")" ++ s) = Some (SHolds p l, s).
Proof.
  intros P N A L. unfold read_prefix. rewrite read_parts_app; [|assumption|assumption|split; reflexivity|reflexivity|lia].
  rewrite strip_app. rewrite read_args_app by (try assumption; lia). reflexivity.
Qed.
Lemma infix_part_head (p : list part) s : forallb good_part p = true -> p <> [] ->
  (exists n r, p = PName n :: r /\ infix n = true) \/
  exists c t, parts_text p ++ s = String c t /\ letter c = true.
Proof.
  destruct p as [|a p]; [congruence|]. intros G _. cbn in G. apply andb_true_iff in G. destruct G as [G _].
  assert (E : exists z, parts_text (a :: p) ++ s = part_text a ++ z).
  { unfold parts_text. destruct p as [|b p]; [eexists; reflexivity|]. eexists.
    change (String.concat "∘" (map part_text (a :: b :: p))) with (part_text a ++ "∘" ++ String.concat "∘" (map part_text (b :: p))). rewrite sapp_assoc. reflexivity. }
  destruct E as (z & ->). destruct a as [n|v]; cbn [good_part part_text] in *.
  - unfold pred_name in G. destruct (infix n) eqn:I; [left; eauto|]. right. destruct (lower_letter n z G) as (c & t & E & L & _). eauto.
  - right. apply var_letter, G.
Qed.
Lemma read_holds_app p l f s : forallb good_part p = true -> p <> [] -> forallb good_arg l = true -> length p + length l < f -> follow s ->
  read_holds f (sholds_text p l ++ s) = Some (SHolds p l, s).
Proof.
  intros P N A L F.
  assert (Pre : forall f', read_prefix f ((parts_text p ++ "(" ++ String.concat ", " (map (opt_text "·") l) ++ ")") ++ s) = f' -> f' = Some (SHolds p l, s)).
  { intros f' <-. rewrite !sapp_assoc. apply read_prefix_app; assumption. }
  assert (Main : (forall o x y, p = [PName o] -> l = [x; y] -> infix o = false) ->
    read_holds f ((parts_text p ++ "(" ++ String.concat ", " (map (opt_text "·") l) ++ ")") ++ s) = Some (SHolds p l, s)).
  { intros Ni. unfold read_holds. destruct p as [|a p]; [congruence|]. clear N. cbn in P. apply andb_true_iff in P. destruct P as [Pa P].
    assert (E : exists z, (parts_text (a :: p) ++ "(" ++ String.concat ", " (map (opt_text "·") l) ++ ")") ++ s = part_text a ++ z /\ ((p = [] /\ exists z', z = "(" ++ z') \/ (p <> [] /\ exists z', z = "∘" ++ z'))).
    { unfold parts_text. destruct p as [|b p].
      - eexists. rewrite !sapp_assoc. cbn [map String.concat]. split; [reflexivity|]. left. eauto.
      - eexists. change (String.concat "∘" (map part_text (a :: b :: p))) with (part_text a ++ "∘" ++ String.concat "∘" (map part_text (b :: p))). rewrite !sapp_assoc. split; [reflexivity|]. right. split; [discriminate|eauto]. }
    destruct E as (z & E & Z). rewrite E at 1. rewrite (Pre _ eq_refl).
    assert (Sz : sep z) by (destruct Z as [[_ (z' & ->)]|[_ (z' & ->)]]; split; reflexivity).
    assert (Oz : read_op z = None) by (destruct Z as [[_ (z' & ->)]|[_ (z' & ->)]]; reflexivity).
    destruct a as [n|v]; cbn [good_part part_text] in *.
    - unfold pred_name in Pa. destruct (infix n) eqn:I.
      + unfold opt_var. rewrite op_not_var by exact I. rewrite read_op_app by exact I.
        destruct Z as [[_ (z' & ->)]|[_ (z' & ->)]]; rewrite !strip_app; [reflexivity|]. destruct (strip "(" _); reflexivity.
      + cbn in Pa. unfold opt_var. rewrite lower_not_var by exact Pa. destruct (lower_letter n z Pa) as (c & t & Ez & Lz & _). rewrite Ez. rewrite read_op_letter by exact Lz. reflexivity.
    - unfold opt_var. rewrite read_var_app by assumption. rewrite Oz. reflexivity. }
  unfold sholds_text.
  destruct p as [|[n|v] [|b p]]; try (apply Main; intros ? ? ? E; discriminate E || congruence).
  destruct l as [|x [|y [|z l]]]; try (apply Main; intros ? ? ? E E'; discriminate E').
  destruct (infix n) eqn:I; [|apply Main; intros o ? ? E _; injection E as <-; exact I]. clear Main Pre.
  cbn in A. apply andb_true_iff in A. destruct A as [Ax A]. apply andb_true_iff in A. destruct A as [Ay _].
  rewrite !sapp_assoc. unfold read_holds.
  assert (Sn : sep (n ++ opt_text "" y ++ s)) by (apply infix_cases in I; destruct I as [-> | ->]; split; reflexivity).
  rewrite opt_var_app by assumption. rewrite read_op_app by exact I.
  assert (X : strip "(" (opt_text "" y ++ s) = None /\ strip "∘" (opt_text "" y ++ s) = None).
  { destruct y as [v|]; cbn [opt_text good_arg] in *; [split; apply var_strip; try assumption; reflexivity|]. cbn [append]. follows F; split; reflexivity. }
  destruct X as [-> ->]. rewrite opt_var_app by (try assumption; apply follow_sep, F). reflexivity.
Qed.

Fixpoint good (A : shape) : Prop :=
  match A with
  | SHolds p l => forallb good_part p = true /\ p <> [] /\ forallb good_arg l = true
  | SBoth c l r => match l with SBoth c' _ _ => conn_eqb c' c = false | _ => True end /\ good l /\ good r
  | SQuantified q x R G => q <> QUnset /\ var_name x = true /\ match R with None => True | Some R => good R end /\ good G
  end.
Fixpoint size (A : shape) : nat :=
  match A with
  | SHolds p l => S (S (length p + length l))
  | SBoth _ l r => S (S (size l + size r))
  | SQuantified _ _ R G => S (match R with None => 0 | Some R => size R end + size G)
  end.

Lemma one_of_letter {A} (l : list (string * A)) c s : letter c = true ->
  forallb (fun e => match fst e with String a _ => negb (letter a) | EmptyString => false end) l = true -> one_of l (String c s) = None.
Proof.
  intros L. induction l as [|[[|a t] x] l IH]; cbn [forallb fst]; intros H; [reflexivity|discriminate|].
  apply andb_true_iff in H. destruct H as [H1 H2]. cbn [one_of]. rewrite strip_letter; [apply IH, H2|exact L|now apply negb_true_iff].
Qed.
Lemma holds_head p l s : forallb good_part p = true -> p <> [] -> forallb good_arg l = true ->
  strip "[" (sholds_text p l ++ s) = None /\ read_quant (sholds_text p l ++ s) = None /\ strip "(" (sholds_text p l ++ s) = None.
Proof.
  intros P N A.
  assert (Le : forall c t, letter c = true -> strip "[" (String c t) = None /\ read_quant (String c t) = None /\ strip "(" (String c t) = None).
  { intros c t L. rewrite !strip_letter by (try assumption; reflexivity). repeat split. apply one_of_letter; [exact L|reflexivity]. }
  assert (Op : forall n t, infix n = true -> strip "[" (n ++ t) = None /\ read_quant (n ++ t) = None /\ strip "(" (n ++ t) = None).
  { intros n t I. apply infix_cases in I. destruct I as [-> | ->]; repeat split; reflexivity. }
  assert (Main : strip "[" ((parts_text p ++ "(" ++ String.concat ", " (map (opt_text "·") l) ++ ")") ++ s) = None /\ read_quant ((parts_text p ++ "(" ++ String.concat ", " (map (opt_text "·") l) ++ ")") ++ s) = None /\ strip "(" ((parts_text p ++ "(" ++ String.concat ", " (map (opt_text "·") l) ++ ")") ++ s) = None).
  { rewrite !sapp_assoc. generalize ("(" ++ String.concat ", " (map (opt_text "·") l) ++ ")" ++ s). intros z. destruct (infix_part_head p z P N) as [(n & r & -> & I)|(c & t & -> & L)]; [|apply Le, L].
    unfold parts_text. destruct r as [|b r]; [apply Op, I|].
    change (String.concat "∘" (map part_text (PName n :: b :: r))) with (n ++ "∘" ++ String.concat "∘" (map part_text (b :: r))). rewrite !sapp_assoc. apply Op, I. }
  unfold sholds_text. destruct p as [|[n|v] [|b p]]; try exact Main. destruct l as [|x [|y [|z l]]]; try exact Main. destruct (infix n) eqn:I; [|exact Main].
  rewrite !sapp_assoc. cbn in A. apply andb_true_iff in A. destruct A as [Ax A]. destruct x as [v|]; cbn [opt_text good_arg] in *; [|exact (Op n _ I)].
  headed Ax (n ++ opt_text "" y ++ s). apply Le, L.
Qed.
Lemma read_quant_app q s : q <> QUnset -> read_quant (quant_sign q ++ s) = Some (q, s).
Proof. intros N. destruct q; try congruence; reflexivity. Qed.
Lemma read_conn_app c s : read_conn (" " ++ conn_sign c ++ " " ++ s) = Some (c, s).
Proof. destruct c; reflexivity. Qed.
Lemma read_conn_stop s : stop s -> read_conn s = None.
Proof. intros S. follows S; reflexivity. Qed.
Lemma quant_not_bracket q s : q <> QUnset -> strip "[" (quant_sign q ++ s) = None.
Proof. intros N. destruct q; try congruence; reflexivity. Qed.
Lemma space_sep s : sep (" " ++ s).
Proof. split; reflexivity. Qed.

(** An operand, and what follows it. *)
Definition operand (rd : nat -> string -> option (shape * string)) (f : nat) (s : string) : option (shape * string) :=
  match strip "(" s with
  | Some r =>
      match rd f r with
      | Some (A, r1) => match strip ")" r1 with Some r2 => Some (A, r2) | None => None end
      | None => None
      end
  | None => read_holds f s
  end.
Definition rest_of (rd : nat -> string -> option (shape * string)) (f : nat) (o : option (shape * string)) : option (shape * string) :=
  match o with
  | Some (A, r) =>
      match read_conn r with
      | Some (c, r1) => match rd f r1 with Some (B, r2) => Some (SBoth c A B, r2) | None => None end
      | None => Some (A, r)
      end
  | None => None
  end.
Lemma read_operand f s : strip "[" s = None -> read_quant s = None -> read_shape (S f) s = rest_of read_shape f (operand read_shape f s).
Proof. intros B Q. cbn [read_shape]. rewrite B, Q. reflexivity. Qed.

Lemma read_sized : forall n A, size A < n -> good A -> forall f s, size A <= f -> stop s -> read_shape f (shape_text A ++ s) = Some (A, s).
Proof.
  induction n as [|n read_ok]; [lia|].
  destruct A as [p l|c A B|q x R G]; cbn [good size shape_text]; intros Sz.
  - intros (P & N & Ar) f s L S. destruct f as [|f]; [lia|]. destruct (holds_head p l s P N Ar) as (H1 & H2 & H3). rewrite read_operand by assumption.
    unfold operand. rewrite H3. rewrite read_holds_app by (try assumption; try lia; apply stop_follow, S). cbn [rest_of]. now rewrite read_conn_stop.
  - intros (Nl & Ga & Gb) f s L S. destruct f as [|f]; [lia|]. rewrite !sapp_assoc.
    assert (Rb : forall f', size B < f' -> read_shape f' (parened (sbare c B) (shape_text B) ++ s) = Some (B, s)).
    { intros f' L'. destruct (sbare c B); cbn [parened]; [apply read_ok; auto; lia|].
      destruct f' as [|f']; [lia|]. rewrite read_operand by reflexivity. rewrite !sapp_assoc. unfold operand. rewrite strip_app. rewrite (read_ok B) by (try lia; cbn; auto).
      rewrite strip_app. cbn [rest_of]. now rewrite read_conn_stop. }
    assert (Z : forall z, rest_of read_shape f (Some (A, " " ++ conn_sign c ++ " " ++ parened (sbare c B) (shape_text B) ++ s)) = z -> z = Some (SBoth c A B, s)).
    { intros z <-. cbn [rest_of]. rewrite read_conn_app. rewrite Rb by lia. reflexivity. }
    destruct A as [p l|c' A1 A2|q x R G].
    + cbn [sbare parened shape_text]. destruct Ga as (P & N & Ar).
      destruct (holds_head p l (" " ++ conn_sign c ++ " " ++ parened (sbare c B) (shape_text B) ++ s) P N Ar) as (H1 & H2 & H3). rewrite read_operand by assumption.
      unfold operand. rewrite H3. rewrite read_holds_app; [apply (Z _ eq_refl)|assumption..|cbn [size] in L; lia|cbn; auto].
    + assert (E : sbare c (SBoth c' A1 A2) = false) by exact Nl. rewrite E. cbn [parened]. rewrite read_operand by reflexivity. unfold operand. rewrite !sapp_assoc, strip_app.
      rewrite read_ok by (first [exact Ga|lia|cbn; auto]). rewrite strip_app. apply (Z _ eq_refl).
    + cbn [sbare parened]. rewrite read_operand by reflexivity. unfold operand. rewrite !sapp_assoc, strip_app.
      rewrite read_ok by (first [exact Ga|lia|cbn; auto]). rewrite strip_app. apply (Z _ eq_refl).
  - intros (Nq & V & Gr & Gg) f s L S. destruct f as [|f]; [lia|]. destruct R as [R|].
    + rewrite !sapp_assoc. cbn [read_shape]. rewrite strip_app, read_quant_app by exact Nq. rewrite read_var_app by (try assumption; split; reflexivity). rewrite strip_app.
      rewrite (read_ok R) by (first [exact Gr|lia|cbn; auto]). rewrite strip_app. rewrite (read_ok G) by (first [assumption|lia]). reflexivity.
    + rewrite !sapp_assoc. cbn [read_shape]. rewrite quant_not_bracket, read_quant_app by exact Nq. rewrite read_var_app by (try assumption; split; reflexivity). rewrite strip_app.
      rewrite (read_ok G) by (first [assumption|lia]). reflexivity.
Qed.

Lemma read_ok A : good A -> forall f s, size A <= f -> stop s -> read_shape f (shape_text A ++ s) = Some (A, s).
Proof. intros G. eapply read_sized; [apply Nat.lt_succ_diag_r|exact G]. Qed.
Theorem shapes_apart A B s : good A -> good B -> stop s -> forall s', stop s' -> shape_text A ++ s = shape_text B ++ s' -> A = B /\ s = s'.
Proof.
  intros Ga Gb S s' S' E. assert (Ra := read_ok A Ga (size A + size B) s ltac:(lia) S). assert (Rb := read_ok B Gb (size A + size B) s' ltac:(lia) S').
  rewrite E, Rb in Ra. injection Ra as <- <-. auto.
Qed.
