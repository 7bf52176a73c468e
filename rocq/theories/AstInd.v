(** Induction over AST nodes, and the words of a node. *)

From Coq Require Import String List.
From Verif Require Import Base PegSyntax Ast.
Import ListNotations.

Section NodeInd.

Variable P : node -> Prop.
Variable Q : word -> Prop.

Definition onO {A} (R : A -> Prop) (o : option A) : Prop := match o with None => True | Some x => R x end.

Hypothesis HText : forall ld d, onO P ld -> Forall P d -> P (NText ld d).
Hypothesis HDiscourse : forall d, Forall P d -> P (NDiscourse d).
Hypothesis HSentence : forall je st da, onO Q je -> P st -> onO Q da -> P (NSentence je st da).
Hypothesis HPrenex : forall ts bi, Forall P ts -> Q bi -> P (NPrenex ts bi).
Hypothesis HPrenexStmt : forall p st, P p -> P st -> P (NPrenexStmt p st).
Hypothesis HPredication : forall p ts na, P p -> onO (Forall P) ts -> onO Q na -> P (NPredication p ts na).
Hypothesis HPrefixed : forall mu p, Q mu -> P p -> P (NPrefixed mu p).
Hypothesis HSerial : forall l r, P l -> P r -> P (NSerial l r).
Hypothesis HWordPredicate : forall w, Q w -> P (NWordPredicate w).
Hypothesis HMi : forall mi ga p, Q mi -> onO Q ga -> P p -> P (NMi mi ga p).
Hypothesis HPo : forall po ga a, Q po -> onO Q ga -> P a -> P (NPo po ga a).
Hypothesis HMo : forall mo teo d, Q mo -> Q teo -> Forall P d -> P (NMo mo teo d).
Hypothesis HLinked : forall go a, Q go -> P a -> P (NLinked go a).
Hypothesis HTerms : forall ts, Forall P ts -> P (NTerms ts).
Hypothesis HPredArg : forall f q p rel, onO Q f -> onO Q q -> P p -> onO P rel -> P (NPredArg f q p rel).
Hypothesis HPredRel : forall p, P p -> P (NPredRel p).
Hypothesis HAdverb : forall p, P p -> P (NAdverb p).
Hypothesis HPrep : forall p a, P p -> P a -> P (NPrep p a).
Hypothesis HPredContent : forall p, P p -> P (NPredContent p).
Hypothesis HParen : forall kio ki d, Q kio -> Q ki -> Forall P d -> P (NParen kio ki d).
Hypothesis HIncidental : forall ju st, Q ju -> P st -> P (NIncidental ju st).
Hypothesis HVocative : forall hu a, Q hu -> P a -> P (NVocative hu a).
Hypothesis HInterjection : forall w, Q w -> P (NInterjection w).
Hypothesis HSpace : forall w, Q w -> P (NSpace w).
Hypothesis HCoP : forall k to0 to1 ru l r, onO Q to0 -> onO Q to1 -> Q ru -> P l -> P r -> P (NCoP k to0 to1 ru l r).
Hypothesis HLU : forall k lu st, Q lu -> P st -> P (NLU k lu st).
Hypothesis HWord : forall w, Q w -> P (NWord w).
Hypothesis HWd : forall t s e m, onO P m -> Q (Wd t s e m).

Fixpoint node_ind2 (n : node) : P n :=
  let onP (o : option node) : onO P o := match o return onO P o with None => I | Some x => node_ind2 x end in
  let onQ (o : option word) : onO Q o := match o return onO Q o with None => I | Some x => word_ind2 x end in
  let all := (fix all (l : list node) : Forall P l :=
    match l return Forall P l with
    | [] => Forall_nil P
    | x :: l' => Forall_cons x (node_ind2 x) (all l')
    end) in
  match n return P n with
  | NText ld d => HText ld d (onP ld) (all d)
  | NDiscourse d => HDiscourse d (all d)
  | NSentence je st da => HSentence je st da (onQ je) (node_ind2 st) (onQ da)
  | NPrenex ts bi => HPrenex ts bi (all ts) (word_ind2 bi)
  | NPrenexStmt p st => HPrenexStmt p st (node_ind2 p) (node_ind2 st)
  | NPredication p ts na => HPredication p ts na (node_ind2 p)
      (match ts return onO (Forall P) ts with None => I | Some l => all l end) (onQ na)
  | NPrefixed mu p => HPrefixed mu p (word_ind2 mu) (node_ind2 p)
  | NSerial l r => HSerial l r (node_ind2 l) (node_ind2 r)
  | NWordPredicate w => HWordPredicate w (word_ind2 w)
  | NMi mi ga p => HMi mi ga p (word_ind2 mi) (onQ ga) (node_ind2 p)
  | NPo po ga a => HPo po ga a (word_ind2 po) (onQ ga) (node_ind2 a)
  | NMo mo teo d => HMo mo teo d (word_ind2 mo) (word_ind2 teo) (all d)
  | NLinked go a => HLinked go a (word_ind2 go) (node_ind2 a)
  | NTerms ts => HTerms ts (all ts)
  | NPredArg f q p rel => HPredArg f q p rel (onQ f) (onQ q) (node_ind2 p) (onP rel)
  | NPredRel p => HPredRel p (node_ind2 p)
  | NAdverb p => HAdverb p (node_ind2 p)
  | NPrep p a => HPrep p a (node_ind2 p) (node_ind2 a)
  | NPredContent p => HPredContent p (node_ind2 p)
  | NParen kio ki d => HParen kio ki d (word_ind2 kio) (word_ind2 ki) (all d)
  | NIncidental ju st => HIncidental ju st (word_ind2 ju) (node_ind2 st)
  | NVocative hu a => HVocative hu a (word_ind2 hu) (node_ind2 a)
  | NInterjection w => HInterjection w (word_ind2 w)
  | NSpace w => HSpace w (word_ind2 w)
  | NCoP k to0 to1 ru l r => HCoP k to0 to1 ru l r (onQ to0) (onQ to1) (word_ind2 ru) (node_ind2 l) (node_ind2 r)
  | NLU k lu st => HLU k lu st (word_ind2 lu) (node_ind2 st)
  | NWord w => HWord w (word_ind2 w)
  end
with word_ind2 (w : word) : Q w :=
  match w return Q w with
  | Wd t s e m => HWd t s e m (match m return onO P m with None => I | Some x => node_ind2 x end)
  end.

Lemma node_word_ind : (forall n, P n) /\ (forall w, Q w).
Proof. split; [exact node_ind2|exact word_ind2]. Qed.

End NodeInd.
