(** The mod methods always return or panic. *)

From Coq Require Import String List.
From Verif Require Import Base PegSyntax Ast AstInd.
Import ListNotations.

Open Scope res_scope.

(** The defining equations of mod. *)
Lemma mod_node_eq m n : mod_node m n =
  match n with
  | NText ld d =>
      d' <- discourse_mod (mod_node m) d ;; Ok (NText ld d')
  | NDiscourse d =>
      d' <- discourse_mod (mod_node m) d ;; Ok (NDiscourse d')
  | NSentence je st da =>
      match da with
      | Some w => w' <- (mod_word m) w ;; Ok (NSentence je st (Some w'))
      | None => st' <- (mod_node m) st ;; Ok (NSentence je st' None)
      end
  | NPrenex ts bi =>
      bi' <- (mod_word m) bi ;; Ok (NPrenex ts bi')
  | NPrenexStmt p st =>
      st' <- (mod_node m) st ;; Ok (NPrenexStmt p st')
  | NPredication p ts na =>
      match na, ts with
      | Some w, _ => w' <- (mod_word m) w ;; Ok (NPredication p ts (Some w'))
      | None, Some l => l' <- terms_mod m (mod_node m) l ;; Ok (NPredication p (Some l') None)
      | None, None => p' <- (mod_node m) p ;; Ok (NPredication p' None None)
      end
  | NPrefixed mu p => p' <- (mod_node m) p ;; Ok (NPrefixed mu p')
  | NSerial l r => r' <- (mod_node m) r ;; Ok (NSerial l r')
  | NWordPredicate w => w' <- (mod_word m) w ;; Ok (NWordPredicate w')
  | NMi mi ga p =>
      match ga with
      | Some w => w' <- (mod_word m) w ;; Ok (NMi mi (Some w') p)
      | None => p' <- (mod_node m) p ;; Ok (NMi mi None p')
      end
  | NPo po ga a =>
      match ga with
      | Some w => w' <- (mod_word m) w ;; Ok (NPo po (Some w') a)
      | None => a' <- (mod_node m) a ;; Ok (NPo po None a')
      end
  | NMo mo teo d => teo' <- (mod_word m) teo ;; Ok (NMo mo teo' d)
  | NLinked go a => a' <- (mod_node m) a ;; Ok (NLinked go a')
  | NTerms ts => ts' <- terms_mod m (mod_node m) ts ;; Ok (NTerms ts')
  | NPredArg f q p rel =>
      match rel with
      | Some r => r' <- (mod_node m) r ;; Ok (NPredArg f q p (Some r'))
      | None => p' <- (mod_node m) p ;; Ok (NPredArg f q p' None)
      end
  | NPredRel p => p' <- (mod_node m) p ;; Ok (NPredRel p')
  | NAdverb p => p' <- (mod_node m) p ;; Ok (NAdverb p')
  | NPrep p a => a' <- (mod_node m) a ;; Ok (NPrep p a')
  | NPredContent p => p' <- (mod_node m) p ;; Ok (NPredContent p')
  | NParen kio ki d => d' <- discourse_mod (mod_node m) d ;; Ok (NParen kio ki d')
  | NIncidental ju st => st' <- (mod_node m) st ;; Ok (NIncidental ju st')
  | NVocative hu a => a' <- (mod_node m) a ;; Ok (NVocative hu a')
  | NInterjection w => w' <- (mod_word m) w ;; Ok (NInterjection w')
  | NSpace w => w' <- (mod_word m) w ;; Ok (NSpace w')
  | NCoP k to0 to1 ru l r => r' <- (mod_node m) r ;; Ok (NCoP k to0 to1 ru l r')
  | NLU k lu st => st' <- (mod_node m) st ;; Ok (NLU k lu st')
  | NWord w => w' <- (mod_word m) w ;; Ok (NWord w')
  end.
Proof. destruct n; reflexivity. Qed.

Lemma mod_word_eq m w : mod_word m w =
  match w with
  | Wd t s e wm =>
      match m with
      | None => Ok w
      | Some _ =>
          match wm with
          | None => Ok (Wd t s e m)
          | Some n => n' <- (mod_node m) n ;; Ok (Wd t s e (Some n'))
          end
      end
  end.
Proof. destruct w; reflexivity. Qed.

Definition good {A} (x : res A) : Prop := match x with NoFuel => False | _ => True end.

Lemma good_bind {A B} (x : res A) (f : A -> res B) : good x -> (forall a, good (f a)) -> good (bind x f).
Proof. destruct x; cbn; auto. Qed.

Lemma good_map_last {A} (f : A -> res A) l : Forall (fun x => good (f x)) l -> good (map_last f l).
Proof.
  induction l as [|x l IH]; intro H; [exact I|]. inversion H; subst. cbn [map_last]. destruct l as [|y l].
  - apply good_bind; [assumption|]. intro; exact I.
  - apply good_bind; [apply IH; assumption|]. intro; exact I.
Qed.

Lemma good_discourse f d : Forall (fun x => good (f x)) d -> good (discourse_mod f d).
Proof.
  intro H. unfold discourse_mod. apply good_map_last. eapply Forall_impl; [|exact H].
  intros x Hx. cbv beta in *. destruct (is_sentence x || is_fragment x)%bool; [exact Hx|exact I].
Qed.

Lemma good_terms m f d : Forall (fun x => good (f x)) d -> good (terms_mod m f d).
Proof. intro H. destruct m; [apply good_map_last; exact H|exact I]. Qed.

Lemma mod_good m : (forall n, good (mod_node m n)) /\ (forall w, good (mod_word m w)).
Proof.
  apply node_word_ind; intros; cbn [mod_node mod_word];
    repeat match goal with |- context [match ?x with _ => _ end] =>
      match x with
      | mod_node _ _ => fail 1 | mod_word _ _ => fail 1
      | _ => is_var x; destruct x; cbn [onO] in * end end;
    try (apply good_bind; [first [assumption | apply good_discourse; assumption | apply good_terms; assumption]|intro; exact I]);
    try exact I.
Qed.
