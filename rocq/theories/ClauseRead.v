(** The notation of formulas with clauses can be read. *)

From Coq Require Import Ascii String NArith List Bool Arith Lia.
From Verif Require Import Base Utf8 Logic Meaning Clauses ClauseHeap ClauseNotation ClauseSketch.
From Verif Require Import Shown ShownRead.
Import ListNotations.
Open Scope list_scope.
Open Scope nat_scope.
Open Scope string_scope.

Local Notation join := ClauseSketch.join.

(** ** The notation of sketches *)

Definition headed_text (p : heading) (P : string) (l : list (option string)) : string :=
  match p, l with
  | HParts [PName s], [x; y] => if infix s then blank "" x ++ s ++ blank "" y else P ++ "(" ++ listed_text l ++ ")"
  | _, _ => P ++ "(" ++ listed_text l ++ ")"
  end.
Definition kalone (c : conn) (A : sketch) : bool :=
  match A with KSays _ _ => true | KJoined c' _ _ => conn_eqb c' c | _ => false end.
Fixpoint sketch_text (A : sketch) : string :=
  match A with
  | KSays p l => headed_text p (heading_text p) (entry_texts l)
  | KJoined c A B => parened (kalone c A) (sketch_text A) ++ " " ++ conn_sign c ++ " " ++ parened (kalone c B) (sketch_text B)
  | KBinds q x G => quant_sign q ++ x ++ " " ++ sketch_text G
  | KLimits q x R G => "[" ++ quant_sign q ++ x ++ " : " ++ sketch_text R ++ "] " ++ sketch_text G
  end
with heading_text (p : heading) : string :=
  match p with HParts l => parts_text l | HClause A => "{" ++ sketch_text A ++ "}" end
with entry_text (a : entry) : string :=
  match a with
  | EVar x => x
  | EQuoted t full => if full then "«" ++ t ++ "»" else "‹" ++ t ++ "›"
  | EThat A => "{" ++ sketch_text A ++ "}"
  | ESeveral l => "⌊" ++ listed_text (entry_texts l) ++ "⌉"
  end
with entry_texts (l : entries) : list (option string) :=
  match l with
  | ENil => []
  | EGap l => None :: entry_texts l
  | EItem a l => Some (entry_text a) :: entry_texts l
  end.

Lemma kjoin_alone c A B : kalone c (join c A B) = true.
Proof. destruct A; cbn; rewrite ?conn_eqb_refl; try reflexivity. destruct (conn_eqb c0 c); cbn; apply conn_eqb_refl. Qed.
Lemma kjoin_text c B : forall A, sketch_text (join c A B) = parened (kalone c A) (sketch_text A) ++ " " ++ conn_sign c ++ " " ++ parened (kalone c B) (sketch_text B).
Proof.
  fix IH 1. destruct A as [p l|c' A1 A2|q x G|q x R G]; [reflexivity| |reflexivity|reflexivity]. cbn [ClauseSketch.join]. destruct (conn_eqb c' c) eqn:E.
  - apply conn_eqb_eq in E. subst c'. change (sketch_text (KJoined c A1 (join c A2 B))) with (parened (kalone c A1) (sketch_text A1) ++ " " ++ conn_sign c ++ " " ++ parened (kalone c (join c A2 B)) (sketch_text (join c A2 B))).
    rewrite kjoin_alone. change (parened true (sketch_text (join c A2 B))) with (sketch_text (join c A2 B)). rewrite IH.
    cbn [kalone]. rewrite conn_eqb_refl. change (parened true (sketch_text (KJoined c A1 A2))) with (parened (kalone c A1) (sketch_text A1) ++ " " ++ conn_sign c ++ " " ++ parened (kalone c A2) (sketch_text A2)).
    rewrite !sapp_assoc. reflexivity.
  - reflexivity.
Qed.

Section Sketch.
Variable name : nat -> string.
Lemma kjoined_alone c F : kalone c (sketch_of name F) = alone c F.
Proof.
  destruct F as [p l|c' F G|q x f G|q x f R G]; try reflexivity. cbn [sketch_of alone].
  destruct (conn_eqb c' c) eqn:E; [apply conn_eqb_eq in E; subst; apply kjoin_alone|].
  destruct (sketch_of name F) as [p l|c1 A B|q x H|q x R H]; cbn; try exact E. destruct (conn_eqb c1 c'); exact E.
Qed.
Lemma headed_applied p P l : headed_text (heading_of name p) P l = applied_text p P l.
Proof.
  destruct p as [s|F]; [|reflexivity]. cbn [heading_of]. unfold headed_text, applied_text. destruct s as [s|v|a b].
  - reflexivity.
  - reflexivity.
  - destruct (parts name (Serial a b)) as [|z l0] eqn:E; [reflexivity|]. destruct z as [s|s]; [|reflexivity]. destruct l0; [|reflexivity]. apply parts_one in E. discriminate.
Qed.
Lemma sketch_text_ok :
  (forall F, sketch_text (sketch_of name F) = form_text name F) /\ (forall p, heading_text (heading_of name p) = prop_text name p) /\
  (forall a, entry_text (entry_of name a) = term_text name a) /\ (forall l, entry_texts (entries_of name l) = row_texts name l).
Proof.
  apply forms_ind.
  - intros p Hp l Hl. change (headed_text (heading_of name p) (heading_text (heading_of name p)) (entry_texts (entries_of name l)) = applied_text p (prop_text name p) (row_texts name l)).
    rewrite Hp, Hl. apply headed_applied.
  - intros c F HF G HG. change (sketch_text (join c (sketch_of name F) (sketch_of name G)) = parened (alone c F) (form_text name F) ++ " " ++ conn_sign c ++ " " ++ parened (alone c G) (form_text name G)).
    rewrite kjoin_text, !kjoined_alone, HF, HG. reflexivity.
  - intros q x f G HG. change (quant_sign q ++ name x ++ " " ++ sketch_text (sketch_of name G) = quant_sign q ++ name x ++ " " ++ form_text name G). now rewrite HG.
  - intros q x f R HR G HG. change ("[" ++ quant_sign q ++ name x ++ " : " ++ sketch_text (sketch_of name R) ++ "] " ++ sketch_text (sketch_of name G) = "[" ++ quant_sign q ++ name x ++ " : " ++ form_text name R ++ "] " ++ form_text name G). now rewrite HR, HG.
  - intros p. apply parts_text_ok.
  - intros F HF. change ("{" ++ sketch_text (sketch_of name F) ++ "}" = "{" ++ form_text name F ++ "}"). now rewrite HF.
  - reflexivity.
  - reflexivity.
  - intros F HF. change ("{" ++ sketch_text (sketch_of name F) ++ "}" = "{" ++ form_text name F ++ "}"). now rewrite HF.
  - intros l Hl. change ("⌊" ++ listed_text (entry_texts (entries_of name l)) ++ "⌉" = "⌊" ++ listed_text (row_texts name l) ++ "⌉"). now rewrite Hl.
  - reflexivity.
  - intros l Hl. change (None :: entry_texts (entries_of name l) = None :: row_texts name l). now rewrite Hl.
  - intros a Ha l Hl. change (Some (entry_text (entry_of name a)) :: entry_texts (entries_of name l) = Some (term_text name a) :: row_texts name l). now rewrite Ha, Hl.
Qed.
End Sketch.

(** ** Reading *)

Fixpoint read_to (close s : string) : option (string * string) :=
  match strip close s with
  | Some r => Some ("", r)
  | None =>
      match s with
      | EmptyString => None
      | String c t => match read_to close t with Some (a, r) => Some (String c a, r) | None => None end
      end
  end.
Definition read_sign (s : string) : quant * string := match read_quant s with Some x => x | None => (QUnset, s) end.
Definition read_bound (s : string) : option (string * string) :=
  match read_var s with Some (x, r) => match strip " " r with Some r' => Some (x, r') | None => None end | None => None end.
Definition put (o : option entry) (l : entries) : entries := match o with None => EGap l | Some a => EItem a l end.

Section Says.
Variables (rd : string -> option (sketch * string)) (re : string -> option (entry * string)) (rs : string -> string -> option (entries * string)).
Definition read_heading (f : nat) (s : string) : option (heading * string) :=
  match strip "{" s with
  | Some r => match rd r with Some (A, r1) => match strip "}" r1 with Some r2 => Some (HClause A, r2) | None => None end | None => None end
  | None => match read_parts f s with Some (l, r) => Some (HParts l, r) | None => None end
  end.
Definition read_applied (f : nat) (s : string) : option (sketch * string) :=
  match read_heading f s with
  | Some (p, r) =>
      match strip "(" r with
      | Some r' => match rs ")" r' with Some (l, r'') => Some (KSays p l, r'') | None => None end
      | None => None
      end
  | None => None
  end.
Definition opt_entry (s : string) : option entry * string := match re s with Some (a, r) => (Some a, r) | None => (None, s) end.
Definition read_says (f : nat) (s : string) : option (sketch * string) :=
  let (x, r) := opt_entry s in
  match read_op r with
  | Some (o, r1) =>
      match strip "(" r1, strip "∘" r1 with
      | None, None => let (y, r2) := opt_entry r1 in Some (KSays (HParts [PName o]) (put x (put y ENil)), r2)
      | _, _ => read_applied f s
      end
  | None => read_applied f s
  end.
Definition read_side (f : nat) (s : string) : option (sketch * string) :=
  match strip "(" s with
  | Some r => match rd r with Some (A, r1) => match strip ")" r1 with Some r2 => Some (A, r2) | None => None end | None => None end
  | None => read_says f s
  end.
Definition read_sides (f : nat) (s : string) : option (sketch * string) :=
  match read_side f s with
  | Some (A, r) =>
      match read_conn r with
      | Some (c, r1) => match rd r1 with Some (B, r2) => Some (KJoined c A B, r2) | None => None end
      | None => Some (A, r)
      end
  | None => None
  end.
End Says.

Fixpoint read_sketch (f : nat) (s : string) {struct f} : option (sketch * string) :=
  match f with
  | O => None
  | S f =>
      match strip "[" s with
      | Some r =>
          let (q, r1) := read_sign r in
          match read_var r1 with
          | Some (x, r2) =>
              match strip " : " r2 with
              | Some r3 =>
                  match read_sketch f r3 with
                  | Some (R, r4) =>
                      match strip "] " r4 with
                      | Some r5 => match read_sketch f r5 with Some (G, r6) => Some (KLimits q x R G, r6) | None => None end
                      | None => None
                      end
                  | None => None
                  end
              | None => None
              end
          | None => None
          end
      | None =>
          let (q, r1) := read_sign s in
          match read_bound r1 with
          | Some (x, r2) => match read_sketch f r2 with Some (G, r3) => Some (KBinds q x G, r3) | None => None end
          | None => read_sides (read_sketch f) (read_entry f) (read_entries f) f s
          end
      end
  end
with read_entry (f : nat) (s : string) {struct f} : option (entry * string) :=
  match f with
  | O => None
  | S f =>
      match read_var s with
      | Some (v, r) => Some (EVar v, r)
      | None =>
          match strip "«" s with
          | Some r => match read_to "»" r with Some (t, r1) => Some (EQuoted t true, r1) | None => None end
          | None =>
              match strip "‹" s with
              | Some r => match read_to "›" r with Some (t, r1) => Some (EQuoted t false, r1) | None => None end
              | None =>
                  match strip "{" s with
                  | Some r => match read_sketch f r with Some (A, r1) => match strip "}" r1 with Some r2 => Some (EThat A, r2) | None => None end | None => None end
                  | None =>
                      match strip "⌊" s with
                      | Some r => match read_entries f "⌉" r with Some (l, r1) => Some (ESeveral l, r1) | None => None end
                      | None => None
                      end
                  end
              end
          end
      end
  end
with read_entries (f : nat) (close s : string) {struct f} : option (entries * string) :=
  match f with
  | O => None
  | S f =>
      match strip close s with
      | Some r => Some (ENil, r)
      | None =>
          match (match strip "·" s with
                 | Some r => Some (None, r)
                 | None => match read_entry f s with Some (a, r) => Some (Some a, r) | None => None end
                 end) with
          | Some (a, r) =>
              match strip ", " r with
              | Some r' => match read_entries f close r' with Some (l, r'') => Some (put a l, r'') | None => None end
              | None => match strip close r with Some r' => Some (put a ENil, r') | None => None end
              end
          | None => None
          end
      end
  end.

(** ** It is read back *)

Fixpoint size (A : sketch) : nat :=
  match A with
  | KSays p l => 2 + size_h p + size_l l
  | KJoined _ A B => 2 + size A + size B
  | KBinds _ _ G => 1 + size G
  | KLimits _ _ R G => 1 + size R + size G
  end
with size_h (p : heading) : nat := match p with HParts l => length l | HClause A => size A end
with size_e (a : entry) : nat :=
  match a with EVar _ | EQuoted _ _ => 1 | EThat A => 1 + size A | ESeveral l => 1 + size_l l end
with size_l (l : entries) : nat :=
  match l with ENil => 1 | EGap l => 1 + size_l l | EItem a l => 1 + size_e a + size_l l end.

Fixpoint good (A : sketch) : Prop :=
  match A with
  | KSays p l => good_h p /\ good_l l
  | KJoined c A B => match A with KJoined c' _ _ => conn_eqb c' c = false | _ => True end /\ good A /\ good B
  | KBinds _ x G => var_name x = true /\ good G
  | KLimits _ x R G => var_name x = true /\ good R /\ good G
  end
with good_h (p : heading) : Prop :=
  match p with HParts l => forallb good_part l = true /\ l <> [] | HClause A => good A end
with good_e (a : entry) : Prop :=
  match a with
  | EVar x => var_name x = true
  | EQuoted t full => lacks (if full then "»" else "›") t = true
  | EThat A => good A
  | ESeveral l => good_l l
  end
with good_l (l : entries) : Prop :=
  match l with ENil => True | EGap l => good_l l | EItem a l => good_e a /\ good_l l end.

(** What may follow an operand, and a formula. *)
Definition after (s : string) : Prop := match s with String c _ => In c [" "; "."; ")"; "]"; "}"]%char | EmptyString => True end.
Definition ended (s : string) : Prop := match s with String c _ => In c ["."; ")"; "]"; "}"]%char | EmptyString => True end.
Lemma ended_after s : ended s -> after s.
Proof. destruct s; cbn; tauto. Qed.
Lemma after_sep s : after s -> sep s.
Proof. destruct s as [|c s]; [trivial|]. cbn. intros [<-|[<-|[<-|[<-|[<-|[]]]]]]; split; reflexivity. Qed.
Lemma ended_conn s : ended s -> read_conn s = None.
Proof. intros S0. follows S0; reflexivity. Qed.

Lemma strip_prefix p : forall s, String.prefix p s = match strip p s with Some _ => true | None => false end.
Proof.
  induction p as [|a p IH]; intros s; [destruct s; reflexivity|]. destruct s as [|c s]; [reflexivity|]. cbn. destruct (ascii_dec a c); [apply IH|reflexivity].
Qed.
Definition closing (c : string) : Prop := c = "»" \/ c = "›".
Lemma no_overlap2 x y a t s : x <> y -> strip (String x (String y "")) (String a t) = None -> strip (String x (String y "")) (String a (t ++ String x s)) = None.
Proof.
  intros N P. cbn [strip] in *. destruct (ascii_dec x a); [|reflexivity]. destruct t as [|b t]; cbn [append strip] in *; [destruct (ascii_dec y x); [congruence|reflexivity]|].
  destruct (ascii_dec y b); [discriminate|reflexivity].
Qed.
Lemma no_overlap3 x y z a t s : x <> y -> x <> z -> strip (String x (String y (String z ""))) (String a t) = None -> strip (String x (String y (String z ""))) (String a (t ++ String x s)) = None.
Proof.
  intros N N' P. cbn [strip] in *. destruct (ascii_dec x a); [|reflexivity]. destruct t as [|b t]; cbn [append strip] in *; [destruct (ascii_dec y x); [congruence|reflexivity]|].
  destruct (ascii_dec y b); [|reflexivity]. destruct t as [|d t]; cbn [append] in *; [destruct (ascii_dec z x); [congruence|reflexivity]|]. destruct (ascii_dec z d); [discriminate|reflexivity].
Qed.
Lemma no_overlap c a t s : closing c -> String.prefix c (String a t) = false -> strip c (String a (t ++ c ++ s)) = None.
Proof.
  intros C P. rewrite strip_prefix in P. destruct (strip c (String a t)) as [r|] eqn:E; [discriminate|]. clear P. destruct C as [-> | ->]; [apply no_overlap2|apply no_overlap3]; try exact E; discriminate.
Qed.
Lemma read_to_eq c s : read_to c s = match strip c s with
  | Some r => Some ("", r)
  | None => match s with EmptyString => None | String a t => match read_to c t with Some (b, r) => Some (String a b, r) | None => None end end
  end.
Proof. destruct s; reflexivity. Qed.
Lemma read_to_app c : closing c -> forall t s, lacks c t = true -> read_to c (t ++ c ++ s) = Some (t, s).
Proof.
  intros C. induction t as [|a t IH]; intros s L.
  - change ("" ++ c ++ s) with (c ++ s). rewrite read_to_eq, strip_app. reflexivity.
  - cbn [lacks] in L. apply andb_prop in L as [L1 L2]. apply negb_true_iff in L1. change (String a t ++ c ++ s) with (String a (t ++ c ++ s)). cbn [read_to]. rewrite no_overlap by assumption. now rewrite IH.
Qed.

Lemma read_sign_none c s : letter c = true -> read_sign (String c s) = (QUnset, String c s).
Proof. intros L. unfold read_sign, read_quant. rewrite one_of_letter; [reflexivity|exact L|reflexivity]. Qed.
Lemma read_sign_app q v s : var_name v = true -> read_sign (quant_sign q ++ v ++ s) = (q, v ++ s).
Proof.
  intros V. destruct q; try reflexivity. cbn [quant_sign append]. headed V s. now apply read_sign_none.
Qed.
Lemma sign_not_bracket q v s : var_name v = true -> strip "[" (quant_sign q ++ v ++ s) = None.
Proof. intros V. destruct q; try reflexivity. cbn [quant_sign append]. apply var_strip; [exact V|reflexivity]. Qed.

(** How predications start. *)
Inductive starts (s : string) : Prop :=
  | StartVar v z : s = v ++ z -> var_name v = true -> sep z -> strip " " z = None -> starts s
  | StartLower n z : s = n ++ z -> lower_name n = true -> starts s
  | StartOp o z : s = o ++ z -> infix o = true -> starts s
  | StartSign o z : s = o ++ z -> In o ["{"; "«"; "‹"; "⌊"] -> starts s.
Lemma starts_head s : starts s -> strip "[" s = None /\ read_sign s = (QUnset, s) /\ strip "(" s = None /\ read_bound s = None.
Proof.
  intros [v z -> V Sz Nz|n z -> L|o z -> I|o z -> I].
  - split; [apply var_strip; [exact V|reflexivity]|]. split; [headed V z; now apply read_sign_none|]. split; [apply var_strip; [exact V|reflexivity]|].
    unfold read_bound. rewrite read_var_app by assumption. now rewrite Nz.
  - unfold read_bound. rewrite lower_not_var by exact L. destruct (lower_letter n z L) as (c & t & -> & Lc & _). rewrite !strip_letter by (try exact Lc; reflexivity). rewrite read_sign_none by exact Lc. auto.
  - unfold read_bound. rewrite op_not_var by exact I. apply infix_cases in I. destruct I as [-> | ->]; repeat split; reflexivity.
  - repeat (destruct I as [<-|I]; [repeat split; reflexivity|]). destruct I.
Qed.
Lemma entry_start a z : good_e a -> sep z -> strip " " z = None -> starts (entry_text a ++ z).
Proof.
  intros G Sz Nz. destruct a as [x|t full|A|l]; cbn [good_e] in G.
  - eapply StartVar; [reflexivity|assumption..].
  - destruct full; eapply StartSign.
    + change (entry_text (EQuoted t true)) with ("«" ++ t ++ "»"). rewrite sapp_assoc. reflexivity.
    + cbn; auto.
    + change (entry_text (EQuoted t false)) with ("‹" ++ t ++ "›"). rewrite sapp_assoc. reflexivity.
    + cbn; auto.
  - eapply StartSign; [change (entry_text (EThat A)) with ("{" ++ sketch_text A ++ "}"); rewrite sapp_assoc; reflexivity|cbn; auto].
  - eapply StartSign; [change (entry_text (ESeveral l)) with ("⌊" ++ listed_text (entry_texts l) ++ "⌉"); rewrite sapp_assoc; reflexivity|cbn; auto 6].
Qed.
Lemma parts_start a p z : forallb good_part (a :: p) = true -> exists z', parts_text (a :: p) ++ "(" ++ z = part_text a ++ z' /\
  ((p = [] /\ exists y, z' = "(" ++ y) \/ (p <> [] /\ exists y, z' = "∘" ++ y)).
Proof.
  intros G. unfold parts_text. destruct p as [|b p].
  - eexists. cbn [map String.concat]. split; [reflexivity|]. left. eauto.
  - eexists. change (String.concat "∘" (map part_text (a :: b :: p))) with (part_text a ++ "∘" ++ String.concat "∘" (map part_text (b :: p))). rewrite !sapp_assoc. split; [reflexivity|]. right. split; [discriminate|eauto].
Qed.
Lemma heading_start p z : good_h p -> starts (heading_text p ++ "(" ++ z).
Proof.
  destruct p as [[|a l]|A]; cbn [good_h]; intros G.
  - destruct G as [_ []]. reflexivity.
  - destruct G as [G _]. change (heading_text (HParts (a :: l))) with (parts_text (a :: l)). destruct (parts_start a l z G) as (z' & -> & Z). cbn in G. apply andb_prop in G as [G _].
    assert (Sz : sep z' /\ strip " " z' = None) by (destruct Z as [[_ (y & ->)]|[_ (y & ->)]]; repeat split; reflexivity). destruct a as [n|v]; cbn [good_part part_text] in *.
    + unfold pred_name in G. destruct (infix n) eqn:I; [eapply StartOp; eauto|eapply StartLower; eauto].
    + eapply StartVar; [reflexivity|exact G|apply Sz..].
  - eapply StartSign; [change (heading_text (HClause A)) with ("{" ++ sketch_text A ++ "}"); rewrite sapp_assoc; reflexivity|cbn; auto].
Qed.

(** Where [=] or [≺] is written between its arguments. *)
Inductive between_args : heading -> entries -> string -> option entry -> option entry -> Prop :=
  | BetweenArgs o x y : infix o = true -> between_args (HParts [PName o]) (put x (put y ENil)) o x y.
Lemma put_texts x l : entry_texts (put x l) = option_map entry_text x :: entry_texts l.
Proof. destruct x; reflexivity. Qed.
Lemma headed_cases p l : (exists o x y, between_args p l o x y /\ headed_text p (heading_text p) (entry_texts l) = blank "" (option_map entry_text x) ++ o ++ blank "" (option_map entry_text y)) \/
  headed_text p (heading_text p) (entry_texts l) = heading_text p ++ "(" ++ listed_text (entry_texts l) ++ ")".
Proof.
  destruct p as [[|[n|v] [|b p]]|A]; try (right; reflexivity). unfold headed_text at 1 2.
  assert (X : (exists x y, l = put x (put y ENil)) \/ forall x y, entry_texts l <> [x; y]).
  { destruct l as [|l|a l]; [right; discriminate|..].
    - destruct l as [|l|a l]; [right; discriminate|..]; (destruct l; [left|right; discriminate..]); [exists None, None|exists None, (Some a)]; reflexivity.
    - destruct l as [|l|b l]; [right; discriminate|..]; (destruct l; [left|right; discriminate..]); [exists (Some a), None|exists (Some a), (Some b)]; reflexivity. }
  destruct X as [(x & y & ->)|X].
  - rewrite !put_texts. change (entry_texts ENil) with (@nil (option string)). destruct (infix n) eqn:I; [left|right; reflexivity]. exists n, x, y. split; [now constructor|reflexivity].
  - right. destruct (entry_texts l) as [|x [|y [|z m]]]; try reflexivity. destruct (X x y eq_refl).
Qed.
Definition good_o (o : option entry) : Prop := match o with None => True | Some a => good_e a end.
Definition size_o (o : option entry) : nat := match o with None => 0 | Some a => size_e a end.
Lemma op_sep o z : infix o = true -> sep (o ++ z) /\ strip " " (o ++ z) = None.
Proof. intros I. apply infix_cases in I. destruct I as [-> | ->]; repeat split; reflexivity. Qed.
Lemma headed_start p l z : good_h p -> good_l l -> starts (headed_text p (heading_text p) (entry_texts l) ++ z).
Proof.
  intros Gp Gl. destruct (headed_cases p l) as [(o & x & y & B & ->)| ->].
  - destruct B as [o x y I]. rewrite !sapp_assoc. destruct x as [a|]; cbn [option_map blank put] in *.
    + destruct Gl as [Ga _]. apply entry_start; [exact Ga|apply op_sep, I..].
    + cbn [append]. eapply StartOp; [reflexivity|exact I].
  - rewrite !sapp_assoc. apply heading_start, Gp.
Qed.

(** ** Entries *)

Definition reads_e (a : entry) : Prop := good_e a -> forall f s, size_e a <= f -> sep s -> read_entry f (entry_text a ++ s) = Some (a, s).
Fixpoint each (l : entries) : Prop := match l with ENil => True | EGap l => each l | EItem a l => reads_e a /\ each l end.
Definition closer (c : string) : Prop := c = ")" \/ c = "⌉".
Definition reads_l (l : entries) : Prop := good_l l -> forall f c s, size_l l <= f -> closer c -> read_entries f c (listed_text (entry_texts l) ++ c ++ s) = Some (l, s).
Lemma listed_cons x y l : listed_text (x :: y :: l) = blank "·" x ++ ", " ++ listed_text (y :: l).
Proof. reflexivity. Qed.
Lemma entry_open a z : good_e a -> sep z -> strip "·" (entry_text a ++ z) = None /\ forall c, closer c -> strip c (entry_text a ++ z) = None.
Proof.
  intros G Sz. destruct a as [x|t full|A|l]; cbn [good_e] in G.
  - change (entry_text (EVar x)) with x. split; [apply var_strip; [exact G|reflexivity]|]. intros c [-> | ->]; (apply var_strip; [exact G|reflexivity]).
  - destruct full; (split; [reflexivity|intros c [-> | ->]; reflexivity]).
  - split; [reflexivity|intros c [-> | ->]; reflexivity].
  - split; [reflexivity|intros c [-> | ->]; reflexivity].
Qed.
Lemma closer_sep c z : closer c -> sep (c ++ z).
Proof. intros [-> | ->]; split; reflexivity. Qed.
Lemma comma_sep z : sep (", " ++ z).
Proof. split; reflexivity. Qed.
Lemma read_list l : each l -> reads_l l.
Proof.
  assert (Step : forall x l, (match x with None => True | Some a => reads_e a end) -> reads_l l -> reads_l (put x l)).
  { intros x m Rx Rm G f c s Sz C. destruct f as [|f]; [destruct x; cbn in Sz; lia|].
    assert (Gx : good_o x /\ good_l m) by (destruct x; [exact G|split; [exact I|exact G]]). destruct Gx as [Gx Gm].
    assert (Sx : size_o x <= f /\ size_l m <= f) by (destruct x; cbn [put size_l size_o] in *; lia). destruct Sx as [Sx Sm].
    assert (Go : forall z, sep z -> strip c (blank "·" (option_map entry_text x) ++ z) = None /\
      (match strip "·" (blank "·" (option_map entry_text x) ++ z) with
       | Some r => Some (None, r)
       | None => match read_entry f (blank "·" (option_map entry_text x) ++ z) with Some (a, r) => Some (Some a, r) | None => None end
       end) = Some (x, z)).
    { intros z Sz'. destruct x as [a|]; cbn [option_map blank].
      - destruct (entry_open a z Gx Sz') as [-> H2]. split; [apply H2, C|]. now rewrite (Rx Gx f z Sx Sz').
      - split; [destruct C as [-> | ->]; reflexivity|]. rewrite strip_app. reflexivity. }
    rewrite put_texts. cbn [read_entries]. destruct (entry_texts m) as [|y t] eqn:Em.
    - assert (m = ENil) by (destruct m; [reflexivity|discriminate..]). subst m. change (listed_text [option_map entry_text x]) with (blank "·" (option_map entry_text x)).
      destruct (Go (c ++ s) (closer_sep c s C)) as [-> ->]. assert (Nc : strip ", " (c ++ s) = None) by (destruct C as [-> | ->]; reflexivity). rewrite Nc, strip_app. reflexivity.
    - rewrite listed_cons, !sapp_assoc. destruct (Go (", " ++ listed_text (y :: t) ++ c ++ s) (comma_sep _)) as [-> ->]. rewrite strip_app.
      rewrite <- Em. rewrite (Rm Gm f c s Sm C). reflexivity. }
  induction l as [|l IH|a l IH]; intros E.
  - intros _ f c s Sz C. destruct f as [|f]; [cbn in Sz; lia|]. change (listed_text (entry_texts ENil) ++ c ++ s) with (c ++ s). cbn [read_entries]. now rewrite strip_app.
  - exact (Step None l I (IH E)).
  - destruct E as [Ea E]. exact (Step (Some a) l Ea (IH E)).
Qed.

(** ** Predications *)

Definition reads (A : sketch) : Prop := good A -> forall f s, size A <= f -> ended s -> read_sketch f (sketch_text A ++ s) = Some (A, s).
Lemma brace_ended z : ended ("}" ++ z).
Proof. cbn. auto 6. Qed.
Lemma read_that A f z : reads A -> good A -> 1 + size A <= f -> read_entry f (("{" ++ sketch_text A ++ "}") ++ z) = Some (EThat A, z).
Proof.
  intros R G L. destruct f as [|f]; [lia|]. rewrite !sapp_assoc. cbn [read_entry].
  change (read_var ("{" ++ sketch_text A ++ "}" ++ z)) with (@None (string * string)). change (strip "«" ("{" ++ sketch_text A ++ "}" ++ z)) with (@None string).
  change (strip "‹" ("{" ++ sketch_text A ++ "}" ++ z)) with (@None string). rewrite strip_app. rewrite (R G f _ ltac:(lia) (brace_ended z)). now rewrite strip_app.
Qed.
Lemma no_entry_lower f n z : lower_name n = true -> read_entry f (n ++ z) = None.
Proof.
  intros L. destruct f as [|f]; [reflexivity|]. cbn [read_entry]. rewrite lower_not_var by exact L. destruct (lower_letter n z L) as (c & t & -> & Lc & _).
  rewrite !strip_letter by (try exact Lc; reflexivity). reflexivity.
Qed.
Lemma no_entry_op f o z : infix o = true -> read_entry f (o ++ z) = None.
Proof. intros I. destruct f as [|f]; [reflexivity|]. apply infix_cases in I. destruct I as [-> | ->]; reflexivity. Qed.
Lemma no_entry_after f s : after s -> read_entry f s = None.
Proof. intros A. destruct f as [|f]; [reflexivity|]. follows A; reflexivity. Qed.
Lemma read_says_app p l f s : good_h p -> good_l l -> match p with HParts _ => True | HClause A => reads A end -> each l ->
  1 + size_h p + size_l l <= f -> after s ->
  read_says (read_sketch f) (read_entry f) (read_entries f) f (headed_text p (heading_text p) (entry_texts l) ++ s) = Some (KSays p l, s).
Proof.
  intros Gp Gl Rp El Sz Af. destruct (headed_cases p l) as [(o & x & y & B & ->)| ->].
  - destruct B as [o x y I]. rewrite !sapp_assoc. unfold read_says.
    assert (Gxy : good_o x /\ good_o y) by (destruct x, y; cbn in *; tauto). destruct Gxy as [Gx Gy].
    assert (Sxy : size_o x <= f /\ size_o y <= f) by (destruct x, y; cbn in *; lia). destruct Sxy as [Sx Sy].
    assert (Rxy : match x with None => True | Some a => reads_e a end /\ match y with None => True | Some a => reads_e a end) by (destruct x, y; cbn in *; tauto). destruct Rxy as [Rx Ry].
    assert (Ox : opt_entry (read_entry f) (blank "" (option_map entry_text x) ++ o ++ blank "" (option_map entry_text y) ++ s) = (x, o ++ blank "" (option_map entry_text y) ++ s)).
    { unfold opt_entry. destruct x as [a|]; cbn [option_map blank]; [rewrite (Rx Gx f _ Sx (proj1 (op_sep o _ I))); reflexivity|]. cbn [append]. now rewrite no_entry_op. }
    rewrite Ox, read_op_app by exact I. assert (Sy' := after_sep s Af).
    assert (X : strip "(" (blank "" (option_map entry_text y) ++ s) = None /\ strip "∘" (blank "" (option_map entry_text y) ++ s) = None).
    { destruct y as [a|]; cbn [option_map blank].
      - destruct a as [v|t full|A|m]; cbn [good_o good_e] in Gy; [change (entry_text (EVar v)) with v; split; (apply var_strip; [exact Gy|reflexivity])|destruct full; split; reflexivity|split; reflexivity|split; reflexivity].
      - cbn [append]. follows Af; split; reflexivity. }
    destruct X as [-> ->].
    assert (Oy : opt_entry (read_entry f) (blank "" (option_map entry_text y) ++ s) = (y, s)).
    { unfold opt_entry. destruct y as [a|]; cbn [option_map blank]; [now rewrite (Ry Gy f _ Sy Sy')|]. cbn [append]. now rewrite no_entry_after. }
    now rewrite Oy.
  - rewrite !sapp_assoc. set (z := listed_text (entry_texts l) ++ ")" ++ s).
    assert (Ap : read_applied (read_sketch f) (read_entries f) f (heading_text p ++ "(" ++ z) = Some (KSays p l, s)).
    { unfold read_applied. assert (H : read_heading (read_sketch f) f (heading_text p ++ "(" ++ z) = Some (p, "(" ++ z)).
      { unfold read_heading. destruct p as [q|A].
        - destruct Gp as [Gp Np]. assert (Nb : strip "{" (heading_text (HParts q) ++ "(" ++ z) = None).
          { destruct q as [|a q]; [congruence|]. change (heading_text (HParts (a :: q))) with (parts_text (a :: q)). destruct (parts_start a q z Gp) as (z' & -> & _). cbn in Gp. apply andb_prop in Gp as [Ga _].
            destruct a as [n|v]; cbn [good_part part_text] in *; [|apply var_strip; [exact Ga|reflexivity]]. unfold pred_name in Ga. destruct (infix n) eqn:I; [apply infix_cases in I; destruct I as [-> | ->]; reflexivity|].
            destruct (lower_letter n z' Ga) as (c & t & -> & Lc & _). apply strip_letter; [exact Lc|reflexivity]. }
          rewrite Nb. change (heading_text (HParts q)) with (parts_text q). cbn [size_h] in Sz. rewrite read_parts_app; [reflexivity|exact Gp|exact Np|split; reflexivity|reflexivity|lia].
        - change (heading_text (HClause A)) with ("{" ++ sketch_text A ++ "}"). rewrite !sapp_assoc, strip_app. cbn [size_h] in Sz. rewrite (Rp Gp f _ ltac:(lia) (brace_ended _)). now rewrite strip_app. }
      rewrite H, strip_app. unfold z. rewrite (read_list l El Gl f ")" s ltac:(lia) (or_introl eq_refl)). reflexivity. }
    unfold read_says. destruct p as [[|a q]|A].
    + destruct Gp as [_ []]. reflexivity.
    + destruct Gp as [Gp _]. change (heading_text (HParts (a :: q))) with (parts_text (a :: q)) in *. destruct (parts_start a q z Gp) as (z' & E & Z). rewrite E in *. cbn in Gp. apply andb_prop in Gp as [Ga _].
      assert (Sz' : sep z' /\ read_op z' = None) by (destruct Z as [[_ (y & ->)]|[_ (y & ->)]]; repeat split; reflexivity).
      destruct a as [n|v]; cbn [good_part part_text] in *.
      * unfold pred_name in Ga. destruct (infix n) eqn:I.
        -- unfold opt_entry. rewrite no_entry_op by exact I. rewrite read_op_app by exact I. destruct Z as [[_ (y & ->)]|[_ (y & ->)]]; rewrite !strip_app; [exact Ap|]. destruct (strip "(" _); exact Ap.
        -- cbn in Ga. unfold opt_entry. rewrite no_entry_lower by exact Ga. destruct (lower_letter n z' Ga) as (c & t & Ec & Lc & _). rewrite Ec in *. rewrite read_op_letter by exact Lc. exact Ap.
      * destruct f as [|f]; [cbn in Sz; lia|]. unfold opt_entry at 1. cbn [read_entry]. rewrite read_var_app by (try exact Ga; apply Sz'). rewrite (proj2 Sz'). exact Ap.
    + change (heading_text (HClause A)) with ("{" ++ sketch_text A ++ "}") in *. unfold opt_entry. cbn [size_h] in Sz. rewrite (read_that A f ("(" ++ z) Rp Gp) by lia. exact Ap.
Qed.

(** ** Formulas *)

Lemma read_start f s : starts s -> read_sketch (S f) s = read_sides (read_sketch f) (read_entry f) (read_entries f) f s.
Proof. intros St. destruct (starts_head s St) as (H1 & H2 & H3 & H4). cbn [read_sketch]. now rewrite H1, H2, H4. Qed.
Lemma read_paren f s : read_sketch (S f) ("(" ++ s) = read_sides (read_sketch f) (read_entry f) (read_entries f) f ("(" ++ s).
Proof. reflexivity. Qed.
Lemma paren_ended z : ended (")" ++ z).
Proof. cbn. auto. Qed.

Definition side (A : sketch) : Prop :=
  match A with
  | KSays p l => good A -> forall f s, size A <= S f -> after s -> read_says (read_sketch f) (read_entry f) (read_entries f) f (sketch_text A ++ s) = Some (A, s)
  | _ => True
  end.
Lemma read_joined c A B f s : reads A -> side A -> reads B -> good (KJoined c A B) -> size (KJoined c A B) <= S f -> ended s ->
  read_sketch (S f) (sketch_text (KJoined c A B) ++ s) = Some (KJoined c A B, s).
Proof.
  intros RA SA RB (Nl & GA & GB) Sz En. cbn [size] in Sz.
  change (sketch_text (KJoined c A B)) with (parened (kalone c A) (sketch_text A) ++ " " ++ conn_sign c ++ " " ++ parened (kalone c B) (sketch_text B)). rewrite !sapp_assoc.
  assert (Rb : read_sketch f (parened (kalone c B) (sketch_text B) ++ s) = Some (B, s)).
  { destruct (kalone c B); cbn [parened]; [apply RB; auto; lia|]. destruct f as [|f]; [lia|]. rewrite !sapp_assoc, read_paren. unfold read_sides, read_side. rewrite strip_app.
    rewrite (RB GB f _ ltac:(lia) (paren_ended s)). rewrite strip_app. now rewrite ended_conn. }
  set (z := " " ++ conn_sign c ++ " " ++ parened (kalone c B) (sketch_text B) ++ s).
  assert (Z : forall a, read_side (read_sketch f) (read_entry f) (read_entries f) f a = Some (A, z) ->
    read_sides (read_sketch f) (read_entry f) (read_entries f) f a = Some (KJoined c A B, s)).
  { intros a H. unfold read_sides. rewrite H. unfold z. rewrite read_conn_app, Rb. reflexivity. }
  assert (Par : kalone c A = false -> read_sketch (S f) (parened (kalone c A) (sketch_text A) ++ z) = Some (KJoined c A B, s)).
  { intros ->. cbn [parened]. rewrite !sapp_assoc, read_paren. apply Z. unfold read_side. rewrite strip_app. rewrite (RA GA f _ ltac:(lia) (paren_ended z)). now rewrite strip_app. }
  destruct A as [p l|c' A1 A2|q x G|q x R G]; [|apply Par; exact Nl|apply Par; reflexivity|apply Par; reflexivity]. clear Par.
  change (parened (kalone c (KSays p l)) (sketch_text (KSays p l))) with (sketch_text (KSays p l)). assert (GA' := GA). destruct GA' as [Gp Gl].
  assert (St := headed_start p l z Gp Gl). change (headed_text p (heading_text p) (entry_texts l)) with (sketch_text (KSays p l)) in St. rewrite read_start by exact St. apply Z.
  unfold read_side. destruct (starts_head _ St) as (_ & _ & -> & _). apply (SA GA); [lia|]. cbn. auto.
Qed.

Theorem sketch_read :
  (forall A, reads A /\ side A) /\ (forall p, match p with HParts _ => True | HClause A => reads A end) /\ (forall a, reads_e a) /\ (forall l, each l).
Proof.
  apply sketches_ind.
  - intros p Rp l El. assert (Sd : side (KSays p l)).
    { intros [Gp Gl] f s Sz Af. cbn [size] in Sz. change (sketch_text (KSays p l)) with (headed_text p (heading_text p) (entry_texts l)). apply read_says_app; first [assumption|lia]. }
    split; [|exact Sd]. intros G f s Sz En. assert (G' := G). destruct G' as [Gp Gl]. destruct f as [|f]; [cbn in Sz; lia|].
    assert (St := headed_start p l s Gp Gl). change (headed_text p (heading_text p) (entry_texts l)) with (sketch_text (KSays p l)) in St. rewrite read_start by exact St.
    unfold read_sides, read_side. destruct (starts_head _ St) as (_ & _ & -> & _). rewrite (Sd G f s Sz (ended_after s En)). now rewrite ended_conn.
  - intros c A [RA SA] B [RB _]. split; [|exact I]. intros G f s Sz En. destruct f as [|f]; [cbn in Sz; lia|]. now apply read_joined.
  - intros q x G [RG _]. split; [|exact I]. intros [V Gg] f s Sz En. cbn [size] in Sz. destruct f as [|f]; [lia|].
    change (sketch_text (KBinds q x G)) with (quant_sign q ++ x ++ " " ++ sketch_text G). rewrite !sapp_assoc. cbn [read_sketch].
    rewrite sign_not_bracket, read_sign_app by exact V. unfold read_bound. rewrite read_var_app by (try exact V; split; reflexivity). rewrite strip_app. rewrite (RG Gg f s ltac:(lia) En). reflexivity.
  - intros q x R [RR _] G [RG _]. split; [|exact I]. intros (V & Gr & Gg) f s Sz En. cbn [size] in Sz. destruct f as [|f]; [lia|].
    change (sketch_text (KLimits q x R G)) with ("[" ++ quant_sign q ++ x ++ " : " ++ sketch_text R ++ "] " ++ sketch_text G). rewrite !sapp_assoc. cbn [read_sketch].
    rewrite strip_app, read_sign_app by exact V. rewrite read_var_app by (try exact V; split; reflexivity). rewrite strip_app. rewrite (RR Gr f ("] " ++ sketch_text G ++ s)) by (try lia; cbn; auto). rewrite strip_app.
    rewrite (RG Gg f s ltac:(lia) En). reflexivity.
  - intros l. exact I.
  - intros A [RA _]. exact RA.
  - intros x G f s Sz Sp. destruct f as [|f]; [cbn in Sz; lia|]. change (entry_text (EVar x)) with x. cbn [read_entry]. now rewrite read_var_app.
  - intros t full G f s Sz Sp. destruct f as [|f]; [cbn in Sz; lia|]. cbn [good_e] in G. destruct full.
    + change (entry_text (EQuoted t true)) with ("«" ++ t ++ "»"). rewrite !sapp_assoc. cbn [read_entry]. change (read_var ("«" ++ t ++ "»" ++ s)) with (@None (string * string)). rewrite strip_app. rewrite read_to_app; [reflexivity|now left|exact G].
    + change (entry_text (EQuoted t false)) with ("‹" ++ t ++ "›"). rewrite !sapp_assoc. cbn [read_entry]. change (read_var ("‹" ++ t ++ "›" ++ s)) with (@None (string * string)). change (strip "«" ("‹" ++ t ++ "›" ++ s)) with (@None string).
      rewrite strip_app. rewrite read_to_app; [reflexivity|now right|exact G].
  - intros A [RA _] G f s Sz _. change (entry_text (EThat A)) with ("{" ++ sketch_text A ++ "}"). apply read_that; assumption.
  - intros l El G f s Sz _. cbn [size_e] in Sz. destruct f as [|f]; [lia|]. change (entry_text (ESeveral l)) with ("⌊" ++ listed_text (entry_texts l) ++ "⌉"). rewrite !sapp_assoc. cbn [read_entry].
    set (z := listed_text (entry_texts l) ++ "⌉" ++ s). change (read_var ("⌊" ++ z)) with (@None (string * string)). change (strip "«" ("⌊" ++ z)) with (@None string). change (strip "‹" ("⌊" ++ z)) with (@None string). change (strip "{" ("⌊" ++ z)) with (@None string).
    rewrite strip_app. unfold z. rewrite (read_list l El G f "⌉" s ltac:(lia) (or_intror eq_refl)). reflexivity.
  - exact I.
  - intros l El. exact El.
  - intros a Ra l El. split; assumption.
Qed.
Theorem sketches_apart A B s s' : good A -> good B -> ended s -> ended s' -> sketch_text A ++ s = sketch_text B ++ s' -> A = B /\ s = s'.
Proof.
  intros Ga Gb S0 S' E. assert (Ra := proj1 (proj1 sketch_read A) Ga (size A + size B) s ltac:(lia) S0). assert (Rb := proj1 (proj1 sketch_read B) Gb (size A + size B) s' ltac:(lia) S').
  rewrite E, Rb in Ra. injection Ra as <- <-. auto.
Qed.
