(** What String writes for the tree of a formula. *)

From Coq Require Import Ascii String NArith List Bool Arith Lia.
From Verif Require Import Base Utf8 Utf8Facts PegSyntax Tone ToneSpec ToneFacts Ast AstSorts Logic LogicWords LogicSpec ScopeSpec Interp Simplify LogicString LogicFuel LogicApi OrderFacts NameFacts SeqFacts NameInj TermFacts
  ScopeFacts ScopeNum ScopeInterp ScopeRun ScopeSimp Meaning MeaningFacts MeaningNames MeaningRun MeaningStep MeaningBody MeaningArgs MeaningSpecs MeaningEnd MeaningHoa
  Shown ShownRead ShownFacts ShownNums.
Import ListNotations.
Open Scope string_scope.
Open Scope list_scope.
Open Scope nat_scope.

Lemma desc_visited h r x : desc h r x -> forall f l, visited h f r = Ok l -> In x l.
Proof.
  induction 1 as [r|r k x (c & E & K) D IH]; intros f l V; destruct (ScopeNum.visited_inv _ _ _ _ V) as (f' & c' & l' & -> & E' & F & ->); [left; reflexivity|].
  rewrite E in E'. injection E' as <-. destruct (flat_ok _ _ _ F _ K) as (w & pre & post & W & ->). right. rewrite !in_app_iff. right. left. exact (IH _ _ W).
Qed.

Section Heap.
Variables (U : unicode) (h h1 : heap) (k : nat) (l : list ref).
Hypothesis B : bare h = bare h1.
Hypothesis Nu : nums h1 k.
(** What the numbers of [h] tell. *)
Hypothesis Same : forall x d, In x l -> refers h x d -> In d l /\ number h x = number h d.
Hypothesis Apart : forall x y, In x l -> In y l -> introduces h x = true -> introduces h y = true -> number h x = number h y -> x = y.

Lemma same_cell r c : nth_error h1 r = Some c -> exists c', nth_error h r = Some c' /\ unnumbered c' = unnumbered c.
Proof.
  intros E. assert (X := bare_nth _ _ r B). rewrite E in X. destruct (nth_error h r) as [c'|]; [|discriminate]. injection X as X. eauto.
Qed.
Ltac cell E := let c' := fresh "c" in let E' := fresh "E'" in let X := fresh "X" in
  destruct (same_cell _ _ E) as (c' & E' & X); destruct c'; try discriminate; cbn in X; injection X; intros; subst.

(** The number of a variable in [h]. *)
Definition is_introducer (x : nat) (r : ref) : bool :=
  introduces h1 r && match number h1 r with Some n => n =? x | None => false end.
Definition renamed (x : nat) : nat :=
  match find (is_introducer x) l with
  | Some r => match number h r with Some n => n | None => 0 end
  | None => 0
  end.
Lemma introducer_one x r r' : is_introducer x r = true -> is_introducer x r' = true -> r = r'.
Proof.
  unfold is_introducer, introduces, number. destruct (nth_error h1 r) as [[| | |n [d|] f| | | | | |]|] eqn:E; try discriminate; intros X;
    (destruct (nth_error h1 r') as [[| | |n' [d'|] f'| | | | | |]|] eqn:E'; try discriminate); intros X'; apply andb_true_iff in X; apply andb_true_iff in X'; destruct X as [_ X], X' as [_ X']; apply Nat.eqb_eq in X; apply Nat.eqb_eq in X'; subst.
  - eapply (u_one _ _ Nu); do 4 eexists; eassumption.
  - exfalso. apply (proj2 (u_free _ _ Nu _ _ _ E') r). do 4 eexists. exact E.
  - exfalso. apply (proj2 (u_free _ _ Nu _ _ _ E) r'). do 4 eexists. exact E'.
  - eapply (u_same _ _ Nu); eassumption.
Qed.
Lemma renamed_at x r : In r l -> is_introducer x r = true -> number h r = Some (renamed x).
Proof.
  intros I J. unfold renamed. destruct (find (is_introducer x) l) as [r'|] eqn:F.
  - apply find_some in F. assert (r' = r) by (eapply introducer_one; [apply F|exact J]). subst r'.
    assert (M : introduces h r = true) by (rewrite (bare_introduces _ _ _ B); unfold is_introducer in J; apply andb_true_iff in J; apply J).
    unfold introduces in M. unfold number. destruct (nth_error h r) as [[]|]; try discriminate; reflexivity.
  - exfalso. assert (X := find_none _ _ F _ I). cbn in X. congruence.
Qed.
Lemma num_introducer d n : num h1 d n -> is_introducer n d = true.
Proof. intros (q & f & rs & sc & E). unfold is_introducer, introduces, number. rewrite E. cbn. apply Nat.eqb_refl. Qed.
Lemma free_introducer r n f : nth_error h1 r = Some (CVariable n None f) -> is_introducer n r = true.
Proof. intros E. unfold is_introducer, introduces, number. rewrite E. cbn. apply Nat.eqb_refl. Qed.

Definition reaches (r : ref) : Prop := forall x, desc h1 r x -> In x l.
Lemma reaches_child r x : reaches r -> child h1 r x -> reaches x.
Proof. intros R C y D. apply R. econstructor 2; eassumption. Qed.
Lemma reaches_here r : reaches r -> In r l.
Proof. intros R. apply R. constructor. Qed.

Lemma thing_number r t : rthing h1 r t -> In r l -> number h r = Some (renamed (thing_var t)) /\ exists d, In d l /\ is_introducer (thing_var t) d = true.
Proof.
  intros H I. destruct H as [r n d f E N|r n E]; cbn [thing_var].
  - cell E. destruct (Same r d I) as [Id M]; [do 2 eexists; eassumption|]. rewrite M. split; [|exists d; split; [exact Id|apply num_introducer, N]]. apply renamed_at; [exact Id|apply num_introducer, N].
  - split; [|exists r; split; [exact I|eapply free_introducer, E]]. apply renamed_at; [exact I|eapply free_introducer, E].
Qed.

Section Show.
Variable names : option (list string).
Let nm (x : nat) : string := show_var false names (renamed x).

Lemma thing_show r t f s : rthing h1 r t -> In r l -> show false names h f r = Ok s -> s = thing_text nm t.
Proof.
  intros H I S. destruct (thing_number _ _ H I) as [N _]. destruct f as [|f]; [discriminate|]. cbn [show] in S. unfold number in N.
  assert (V : exists n d fo, nth_error h r = Some (CVariable n d fo)) by (destruct H as [r n d fo E _|r n E]; cell E; do 3 eexists; eassumption).
  destruct V as (n & d & fo & E). rewrite E in S, N. injection S as <-. injection N as ->. destruct t; reflexivity.
Qed.
Lemma prop_show : forall f r p s, rprop h1 r p -> reaches r -> show false names h f r = Ok s -> s = property_text nm p.
Proof.
  induction f as [|f IH]; intros r p s H R S; [discriminate|]. destruct H as [r n E|r t T|r x y p q E Hp Hq].
  - cbn [show] in S. cell E. rewrite E' in S. injection S as <-. reflexivity.
  - apply (thing_show r t (Datatypes.S f)); [exact T|apply reaches_here, R|exact S].
  - cbn [show] in S. assert (R' := reaches_child r). cell E. rewrite E' in S.
    destruct (show false names h f x) as [a| |] eqn:Sa; cbn [bind] in S; try discriminate. destruct (show false names h f y) as [b| |] eqn:Sb; cbn [bind] in S; try discriminate. injection S as <-.
    apply IH with (p := p) in Sa; [|exact Hp|apply R'; [exact R|eexists; split; [eassumption|cbn; auto]]].
    apply IH with (p := q) in Sb; [|exact Hq|apply R'; [exact R|eexists; split; [eassumption|cbn; auto]]]. subst. reflexivity.
Qed.
Lemma opt_show f o t e s : optional (rthing h1) o t -> (forall x, o = Some x -> In x l) ->
  match o with None => Ok e | Some x => show false names h f x end = Ok s -> s = arg_text nm e t.
Proof.
  intros H I S. destruct H as [|x t H]; [injection S as <-; reflexivity|]. eapply thing_show; [exact H|apply I; reflexivity|exact S].
Qed.
Lemma args_show f : forall xs ts s, Forall2 (optional (rthing h1)) xs ts -> (forall x, In (Some x) xs -> In x l) ->
  show_args (show false names h f) xs = Ok s -> s = String.concat ", " (map (arg_text nm "·") ts).
Proof.
  intros xs ts s H. revert s. induction H as [|x t xs ts Hx H IH]; intros s I S; cbn [show_args] in S; [injection S as <-; reflexivity|].
  destruct (match x with None => Ok "·" | Some y => show false names h f y end) as [a| |] eqn:Sa; cbn [bind] in S; try discriminate.
  destruct (show_args (show false names h f) xs) as [b| |] eqn:Sb; cbn [bind] in S; try discriminate. injection S as <-.
  apply (opt_show f x t "·" a Hx) in Sa; [|intros y ->; apply I; left; reflexivity]. assert (Sb' := IH b ltac:(intros y J; apply I; right; exact J) eq_refl). clear Sb. rename Sb' into Sb.
  destruct H as [|x' t' xs ts Hx' H]; cbn [map]; subst a; [cbn in Sb; subst b; cbn; apply sapp_nil|]. subst b. reflexivity.
Qed.
Lemma form_bare c x F cx : rform h1 x F -> nth_error h x = Some cx -> parens c cx = negb (bare_operand c F).
Proof.
  intros H E. destruct H as [r y ys p ts E1 _ _|r c' a b F G E1 _ _|r q n f s F E1 _|r q n f y s R F E1 _ _]; cell E1; rewrite E in E'; injection E' as ->; cbn; try reflexivity.
  destruct c', c; reflexivity.
Qed.
Theorem form_show : forall f r F s, rform h1 r F -> reaches r -> show false names h f r = Ok s -> s = formula_text nm F.
Proof.
  induction f as [|f IH]; intros r F s H R S; [discriminate|].
  assert (Rc : forall c x, nth_error h1 r = Some c -> In x (below c) -> reaches x) by (intros c x E I; eapply reaches_child; [exact R|exists c; auto]).
  destruct H as [r x xs p ts E Hp Ha|r c x y F G E Hf Hg|r q n fo x F E Hf|r q n fo y x R0 F E Hr Hf].
  - assert (Rp : reaches x) by (eapply Rc; [exact E|left; reflexivity]).
    assert (Ra : forall y, In (Some y) xs -> In y l) by (intros y I; apply reaches_here, (Rc _ _ E); right; apply in_flat_map; exists (Some y); split; [exact I|left; reflexivity]).
    cbn [show] in S. cell E. rewrite E' in S. cbn [formula_text].
    assert (Pre : forall s, bind (show false names h f x) (fun n => bind (show_args (show false names h f) xs) (fun a => Ok (n ++ "(" ++ a ++ ")")%string)) = Ok s ->
              s = (property_text nm p ++ "(" ++ String.concat ", " (map (arg_text nm "·") ts) ++ ")")%string).
    { intros s0 S0. destruct (show false names h f x) as [a| |] eqn:Sa; cbn [bind] in S0; try discriminate. destruct (show_args (show false names h f) xs) as [b| |] eqn:Sb; cbn [bind] in S0; try discriminate.
      injection S0 as <-. apply prop_show with (p := p) in Sa; [|exact Hp|exact Rp]. apply args_show with (ts := ts) in Sb; [|exact Ha|exact Ra]. subst. reflexivity. }
    assert (Not : (forall n, p <> Named n) -> holds_text nm p ts = (property_text nm p ++ "(" ++ String.concat ", " (map (arg_text nm "·") ts) ++ ")")%string).
    { intros N. unfold holds_text. destruct p; [destruct (N name eq_refl)|reflexivity|reflexivity]. }
    destruct Hp as [x n Ex|x t T|x a b p q Ex Hp Hq].
    + cell Ex. rewrite E'0 in S. unfold holds_text. cbn [property_text] in *.
      assert (Pre' : forall s, bind (show_args (show false names h f) xs) (fun a => Ok (n ++ "(" ++ a ++ ")")%string) = Ok s -> s = (n ++ "(" ++ String.concat ", " (map (arg_text nm "·") ts) ++ ")")%string).
      { intros s0 S0. destruct (show_args (show false names h f) xs) as [b| |] eqn:Sb; cbn [bind] in S0; try discriminate.
        injection S0 as <-. apply args_show with (ts := ts) in Sb; [|exact Ha|exact Ra]. subst. reflexivity. }
      destruct Ha as [|x1 t1 xs ts H1 Ha]; [exact (Pre _ S)|]. destruct Ha as [|x2 t2 xs ts H2 Ha]; [exact (Pre _ S)|]. destruct Ha as [|x3 t3 xs ts H3 Ha]; [|exact (Pre _ S)].
      change (is_bin_op n) with (infix n) in S. destruct (infix n); [|exact (Pre' _ S)]. unfold show_opt in S.
      destruct (match x1 with None => Ok "" | Some r0 => show false names h f r0 end) as [a| |] eqn:Sa; cbn [bind] in S; try discriminate.
      destruct (match x2 with None => Ok "" | Some r0 => show false names h f r0 end) as [b| |] eqn:Sb; cbn [bind] in S; try discriminate. injection S as <-.
      apply (opt_show f x1 t1 "" a H1) in Sa; [|intros y ->; apply Ra; left; reflexivity]. apply (opt_show f x2 t2 "" b H2) in Sb; [|intros y ->; apply Ra; right; left; reflexivity]. subst. reflexivity.
    + rewrite Not by discriminate. apply Pre. rewrite <- S.
      assert (V : exists n d fo, nth_error h x = Some (CVariable n d fo)) by (destruct T as [r0 n d fo Et _|r0 n Et]; cell Et; do 3 eexists; eassumption). destruct V as (n & d & fo & ->). reflexivity.
    + rewrite Not by discriminate. apply Pre. rewrite <- S. cell Ex. rewrite E'0. reflexivity.
  - assert (Rx : reaches x) by (eapply Rc; [exact E|left; reflexivity]). assert (Ry : reaches y) by (eapply Rc; [exact E|right; left; reflexivity]).
    cbn [show] in S. cell E. rewrite E' in S. destruct (nth_error h x) as [cx|] eqn:Cx; [|discriminate]. destruct (nth_error h y) as [cy|] eqn:Cy; [|discriminate].
    destruct (show false names h f x) as [a| |] eqn:Sa; cbn [bind] in S; try discriminate. destruct (show false names h f y) as [b| |] eqn:Sb; cbn [bind] in S; try discriminate.
    apply (IH _ _ _ Hf Rx) in Sa. apply (IH _ _ _ Hg Ry) in Sb. injection S as <-. subst a b. cbn [formula_text].
    rewrite (form_bare c x F cx Hf Cx), (form_bare c y G cy Hg Cy). destruct (bare_operand c F), (bare_operand c G), c; reflexivity.
  - assert (Rx : reaches x) by (eapply Rc; [exact E|left; reflexivity]). assert (N := renamed_at n r (reaches_here _ R) ltac:(apply num_introducer; do 4 eexists; exact E)).
    cbn [show] in S. cell E. unfold number in N. rewrite E' in S, N. injection N as ->. cbn [show_opt] in S. destruct (show false names h f x) as [a| |] eqn:Sa; cbn [bind] in S; try discriminate.
    apply (IH _ _ _ Hf Rx) in Sa. injection S as <-. subst a. destruct q; reflexivity.
  - assert (Rx : reaches x) by (eapply Rc; [exact E|right; left; reflexivity]). assert (Ry : reaches y) by (eapply Rc; [exact E|left; reflexivity]).
    assert (N := renamed_at n r (reaches_here _ R) ltac:(apply num_introducer; do 4 eexists; exact E)).
    cbn [show] in S. cell E. unfold number in N. rewrite E' in S, N. injection N as ->. cbn [show_opt] in S.
    destruct (show false names h f y) as [a| |] eqn:Sa; cbn [bind] in S; try discriminate. destruct (show false names h f x) as [b| |] eqn:Sb; cbn [bind] in S; try discriminate.
    apply (IH _ _ _ Hr Ry) in Sa. apply (IH _ _ _ Hf Rx) in Sb. injection S as <-. subst a b. destruct q; reflexivity.
Qed.
End Show.

(** ** The variables of the formula *)

Lemma args_introduced xs ts x : Forall2 (optional (rthing h1)) xs ts -> (forall y, In (Some y) xs -> In y l) -> In x (arg_vars ts) -> exists d, In d l /\ is_introducer x d = true.
Proof.
  intros H I J. unfold arg_vars in J. apply in_flat_map in J. destruct J as ([t|] & K & J); [|destruct J]. destruct J as [<-|[]].
  induction H as [|o t' xs ts Ho H IH]; [destruct K|]. destruct K as [->|K]; [|apply IH; [intros y Y; apply I; right; exact Y|exact K]].
  inversion Ho as [|a b Hb]; subst. apply (thing_number _ _ Hb). apply I. left. reflexivity.
Qed.
Lemma prop_introduced r p x : rprop h1 r p -> reaches r -> In x (property_vars p) -> exists d, In d l /\ is_introducer x d = true.
Proof.
  induction 1 as [r n E|r t T|r a b p q E Hp IHp Hq IHq]; intros R I; cbn in I.
  - destruct I.
  - destruct I as [<-|[]]. apply (thing_number _ _ T (reaches_here _ R)).
  - apply in_app_or in I. destruct I as [I|I]; [apply IHp|apply IHq]; try exact I; eapply reaches_child; try exact R; eexists; (split; [exact E|cbn; auto]).
Qed.
Lemma form_introduced r F x : rform h1 r F -> reaches r -> In x (variables F) -> exists d, In d l /\ is_introducer x d = true.
Proof.
  induction 1 as [r y ys p ts E Hp Ha|r c a b F G E Hf IHf Hg IHg|r q n f s F E Hf IHf|r q n f y s R0 F E Hr IHr Hf IHf]; intros R I; cbn [variables] in I;
    assert (Rc : forall x, In x (below _) -> reaches x) by (intros z Z; eapply reaches_child; [exact R|eexists; split; [exact E|exact Z]]).
  - apply in_app_or in I. destruct I as [I|I]; [eapply prop_introduced; [exact Hp|apply Rc; left; reflexivity|exact I]|].
    eapply args_introduced; [exact Ha| |exact I]. intros z Z. apply reaches_here, Rc. right. apply in_flat_map. exists (Some z). split; [exact Z|left; reflexivity].
  - apply in_app_or in I. destruct I as [I|I]; [apply IHf|apply IHg]; try exact I; apply Rc; cbn; auto.
  - destruct I as [<-|I]; [exists r; split; [apply reaches_here, R|apply num_introducer; do 4 eexists; exact E]|]. apply IHf; [apply Rc; cbn; auto|exact I].
  - destruct I as [<-|I]; [exists r; split; [apply reaches_here, R|apply num_introducer; do 4 eexists; exact E]|]. apply in_app_or in I.
    destruct I as [I|I]; [apply IHr|apply IHf]; try exact I; apply Rc; cbn; auto.
Qed.
Lemma introducer_fun x y r : is_introducer x r = true -> is_introducer y r = true -> x = y.
Proof.
  unfold is_introducer. intros X Y. apply andb_true_iff in X. apply andb_true_iff in Y. destruct X as [_ X], Y as [_ Y]. destruct (number h1 r); [|discriminate].
  apply Nat.eqb_eq in X. apply Nat.eqb_eq in Y. congruence.
Qed.
Theorem renamed_apart r F x y : rform h1 r F -> reaches r -> In x (variables F) -> In y (variables F) -> renamed x = renamed y -> x = y.
Proof.
  intros H R Ix Iy E. destruct (form_introduced _ _ _ H R Ix) as (d & Id & D). destruct (form_introduced _ _ _ H R Iy) as (e & Ie & D').
  assert (d = e).
  { assert (In1 : forall z, is_introducer z d = true -> introduces h d = true) by (intros z Z; rewrite (bare_introduces _ _ _ B); unfold is_introducer in Z; apply andb_true_iff in Z; apply Z).
    apply Apart; auto; [eapply In1, D|rewrite (bare_introduces _ _ _ B); unfold is_introducer in D'; apply andb_true_iff in D'; apply D'|].
    rewrite (renamed_at _ _ Id D), (renamed_at _ _ Ie D'). congruence. }
  subst e. eapply introducer_fun; eassumption.
Qed.

(** ** The letters *)

Definition Pw (s : string) : Prop := word_name s = true.
Hypothesis PU : plain_upper U.

Lemma left_pred_name : forall f r p n, rprop h1 r p -> pfine Pw p -> left_pred h f r = Ok (Some n) -> Pw n.
Proof.
  induction f as [|f IH]; intros r p n H Fi E; [discriminate|]. cbn [left_pred] in E. destruct H as [r s Es|r t T|r x y p q Es Hp Hq].
  - cell Es. rewrite E' in E. injection E as ->. exact Fi.
  - destruct T as [r m d fo Et _|r m Et]; cell Et; rewrite E' in E; discriminate.
  - cell Es. rewrite E' in E. destruct Fi as [Fp Fq]. destruct (left_pred h f x) as [[s|]| |] eqn:Lx; cbn [bind] in E; try discriminate.
    destruct (String.eqb s "shi"); [exact (IH _ _ _ Hq Fq E)|]. injection E as ->. exact (IH _ _ _ Hp Fp Lx).
Qed.
Lemma left_predication_prop : forall f r F p, rform h1 r F -> fine Pw F -> left_predication h f (Some r) = Ok (Some p) -> exists P, rprop h1 p P /\ pfine Pw P.
Proof.
  induction f as [|f IH]; intros r F p H Fi E; [discriminate|]. cbn [left_predication] in E.
  destruct H as [r y ys q ts E1 Hp _|r c a b F G E1 Hf _|r q n fo s F E1 _|r q n fo y s R F E1 _ _]; cell E1; rewrite E' in E; try discriminate.
  - injection E as <-. eauto.
  - eapply IH; [exact Hf|apply Fi|exact E].
Qed.
Lemma word_cap n : Pw n -> infix n = false -> cap (to_upper U (stake (snd (decode_rune n)) n)).
Proof.
  unfold Pw, word_name. intros W I. rewrite I in W. cbn in W. destruct n as [|c rest]; [discriminate|]. apply andb_true_iff in W. destruct W as [L W]. cbn in W. apply andb_true_iff in W. destruct W as [Lo _].
  unfold is_lower in Lo. apply andb_true_iff in Lo. destruct Lo as [L1 _]. apply N.leb_le in L, L1.
  assert (D : decode_rune (String c rest) = (byte_of c, 1)).
  { cbn [decode_rune]. destruct (N.ltb_spec (byte_of c) 128); [reflexivity|lia]. }
  rewrite D. cbn [snd stake].
  assert (D' : runes (String c "") = [byte_of c]).
  { rewrite runes_cons by discriminate. assert (D' : decode_rune (String c "") = (byte_of c, 1)).
    { cbn [decode_rune]. destruct (N.ltb_spec (byte_of c) 128); [reflexivity|lia]. }
    rewrite D'. reflexivity. }
  unfold to_upper. rewrite D'. cbn [map of_runes]. rewrite PU by lia. rewrite encode_ascii by lia.
  exists (byte (byte_of c - 32)). split; [reflexivity|]. rewrite byte_of_byte by lia. lia.
Qed.
(** The restrictions in the tree are formulas. *)
Lemma restriction_form r F d q n fo x sc : rform h1 r F -> fine Pw F -> desc h1 r d -> nth_error h1 d = Some (CBinding q n fo (Some x) sc) -> exists R, rform h1 x R /\ fine Pw R.
Proof.
  intros H Fi D E. revert Fi D. induction H as [r y ys p ts E1 Hp Ha|r c a b F G E1 Hf IHf Hg IHg|r q' n' f s F E1 Hf IHf|r q' n' f y s R F E1 Hr IHr Hf IHf]; intros Fi D;
    (inversion D as [|? z ? (cz & Ez & Iz) D']; subst; [rewrite E1 in E; try discriminate|rewrite E1 in Ez; injection Ez as <-]).
  - exfalso. destruct Iz as [<-|Iz].
    + clear - Hp D' E. induction Hp as [r s Es|r t T|r a b p q0 Es Hp IHp Hq IHq].
      * inversion D' as [|? z ? (cz & Ez & Iz) D2]; subst; [congruence|]. rewrite Es in Ez. injection Ez as <-. destruct Iz.
      * destruct T as [r m e fo' Et _|r m Et]; (inversion D' as [|? z ? (cz & Ez & Iz) D2]; subst; [congruence|]; rewrite Et in Ez; injection Ez as <-; destruct Iz).
      * inversion D' as [|? z ? (cz & Ez & Iz) D2]; subst; [congruence|]. rewrite Es in Ez. injection Ez as <-. destruct Iz as [<-|[<-|[]]]; [exact (IHp D2)|exact (IHq D2)].
    + apply in_flat_map in Iz. destruct Iz as ([v|] & Iv & Iz); [|destruct Iz]. destruct Iz as [<-|[]]. clear - Ha Iv D' E. induction Ha as [|o t xs ts Ho H IH]; [destruct Iv|].
      destruct Iv as [->|Iv]; [|apply IH, Iv]. inversion Ho as [|a b T]; subst. destruct T as [r m e fo' Et _|r m Et]; (inversion D' as [|? z ? (cz & Ez & Iz) D2]; subst; [congruence|]; rewrite Et in Ez; injection Ez as <-; destruct Iz).
  - destruct Fi as [F1 F2]. destruct Iz as [<-|[<-|[]]]; [apply IHf|apply IHg]; assumption.
  - destruct Fi as (_ & _ & F2). destruct Iz as [<-|[]]. apply IHf; assumption.
  - injection E as <- <- <- <- <-. destruct Fi as (_ & F1 & _). eauto.
  - destruct Fi as (_ & F1 & F2). destruct Iz as [<-|[<-|[]]]; [apply IHr|apply IHf]; assumption.
Qed.

Lemma letters r F f l' seen : rform h1 r F -> fine Pw F -> (forall d, In d l -> desc h1 r d) -> (forall x, In x l' -> In x l) ->
  var_runes U h f l' [] = Ok seen -> forall v c, In (v, c) seen -> cap c.
Proof.
  intros H Fi De Sub E.
  assert (G : forall l' seen seen', (forall x, In x l' -> In x l) -> (forall v r0, In (v, r0) seen -> cap r0) -> var_runes U h f l' seen = Ok seen' -> forall v r0, In (v, r0) seen' -> cap r0).
  { clear l' seen Sub E. induction l' as [|x l' IH]; intros seen seen' Sub C E; cbn in E; [injection E as <-; exact C|].
    assert (Sub' : forall x, In x l' -> In x l) by (intros y Y; apply Sub; right; exact Y).
    destruct (nth_error h x) as [[| | |n def fo| | | | | |]|] eqn:Ex; try (eapply IH; eassumption).
    destruct (existsb _ seen); [eapply IH; eassumption|].
    destruct (var_rune U h f def) as [y| |] eqn:V; cbn in E; try discriminate. eapply IH; [exact Sub'| |exact E].
    intros v r0 J. apply in_app_iff in J. destruct J as [J|[J|[]]]; [eapply C, J|]. injection J as <- <-.
    assert (CU : cap "U") by (exists "U"%char; split; [reflexivity|vm_compute; split; discriminate]).
    unfold var_rune in V. destruct def as [d|]; [|injection V as <-; exact CU].
    destruct (Same x d (Sub x (or_introl eq_refl))) as [Id _]; [do 2 eexists; exact Ex|].
    destruct (nth_error h d) as [[q m f' rs sc| | | | | | | | |]|] eqn:Ed; try discriminate.
    destruct (left_predication h f rs) as [[p|]| |] eqn:Lp; cbn in V; try discriminate; [|injection V as <-; apply cap_X].
    destruct (left_pred h f p) as [[name|]| |] eqn:LP; cbn in V; try discriminate; [|injection V as <-; apply cap_X].
    destruct rs as [x0|]; [|destruct f; discriminate].
    assert (Ed1 : exists m', nth_error h1 d = Some (CBinding q m' f' (Some x0) sc)).
    { assert (X := bare_nth _ _ d B). rewrite Ed in X. destruct (nth_error h1 d) as [[]|]; try discriminate. cbn in X. injection X as <- <- <- <-. eauto. }
    destruct Ed1 as (m' & Ed1). destruct (restriction_form _ _ _ _ _ _ _ _ H Fi (De _ Id) Ed1) as (R & Hr & Fr).
    destruct (left_predication_prop _ _ _ _ Hr Fr Lp) as (P & Hp & Fp). assert (W := left_pred_name _ _ _ _ Hp Fp LP).
    destruct (is_bin_op name) eqn:Bo; [injection V as <-; apply cap_X|]. injection V as <-. apply word_cap; [exact W|exact Bo]. }
  eapply G; [exact Sub| |exact E]. contradiction.
Qed.
End Heap.
