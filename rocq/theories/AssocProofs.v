From Verif Require Import Base.
From Coq Require Import ssreflect ssrfun ssrbool.
From Verif Require Import FlagsModel Algebra Matrix FlagsSpec FlagsProofs AssocModel AssocSpec.
Set Implicit Arguments.
Unset Strict Implicit.
Set Bullet Behavior "None".
Local Open Scope mx_scope.

Fixpoint node_eqbP (a b : node) : node_eqb a b = true -> a = b
with source_eqbP (a b : source) : source_eqb a b = true -> a = b.
Proof.
- case: a b => [|g s] [|h t] //=; case: assoc_eq_dec => //= -> h1; by rewrite (source_eqbP _ _ h1).
- case: a b => [r|m|o|] [r'|m'|o'|] //=; try by case: assoc_eq_dec => //= ->.
  by move=> h1; rewrite (node_eqbP _ _ h1).
Qed.
Fixpoint node_eqb_refl (a : node) : node_eqb a a = true
with source_eqb_refl (a : source) : source_eqb a a = true.
Proof.
- case: a => [|g s] //=; case: assoc_eq_dec => //= _; exact: source_eqb_refl.
- case: a => [r|m|o|] //=; try by case: assoc_eq_dec.
Qed.

Section Denote.
Variables (R : cring) (conj : conjugation R) (n : nat).
Hypothesis conjK : involutive conj.
Variables (A Ai : mx R n n) (f : flags) (rule meth : assoc -> bool) (rsem msem : assoc -> mx R n n).
Hypothesis hf : true_flags conj A f.
Hypothesis hinv : inverse_of A Ai rule meth.
Notation conjmx := (conjmx conj).
Notation adjmx := (adjmx conj).

Let t := generate f rule meth.

Definition slotE (o : node) : (mx R n n * mx R n n)%type :=
  match o with
  | Self => (A, Ai)
  | New g _ => fold_left (@apply_attr _ conj n) (slot_path g) (A, Ai)
  end.

(** The slots of the table. *)
Definition slot (b : bool * bool * bool) : node :=
  match b with
  | (false, false, false) => Self
  | (true, false, false) => nC t | (false, true, false) => nT t | (true, true, false) => nH t
  | (false, false, true) => nI t | (true, false, true) => nIC t | (false, true, true) => nIT t
  | (true, true, true) => nIH t
  end.
Definition bitsE (b : bool * bool * bool) : (mx R n n * mx R n n)%type :=
  let '(c, tr, i) := b in
  let M := if i then (Ai, A) else (A, Ai) in
  let M := if tr then ((fst M)^T, (snd M)^T) else M in
  if c then (conjmx (fst M), conjmx (snd M)) else M.

Lemma conj_tr m p (M : mx R m p) : conjmx M^T = (conjmx M)^T.
Proof. exact: conjmx_tr. Qed.

Lemma bitsE_attr b a : apply_attr conj (bitsE b) a = bitsE (bits_attr b a).
Proof.
case: b => [[c tr] i]; case: a; case: c; case: tr; case: i => //=;
  rewrite /FlagsSpec.adjmx ?(conj_tr, trmxK) ?(conjmxK conjK) ?trmxK //.
Qed.

(** The facts given by the flags, and by the inverse being unique. *)
Lemma real_A : f Real = true -> conjmx A = A. Proof. exact: (hf (k := Real)). Qed.
Lemma sym_A : f Symmetric = true -> A^T = A. Proof. exact: (hf (k := Symmetric)). Qed.
Lemma herm_A : f Hermitian = true -> (conjmx A)^T = A.
Proof. by move/(hf (k := Hermitian)); rewrite /= /FlagsSpec.adjmx conj_tr. Qed.
Lemma inv_is B : B *m A = onemx n -> B = Ai.
Proof.
move=> BA; case: hinv => [[AiA AAi]|[nB _]]; last by case: (nB B).
exact: (inv_unique BA).
Qed.
Lemma orth_A : f Orthogonal = true -> A^T = Ai.
Proof. by move/(hf (k := Orthogonal)); exact: inv_is. Qed.
Lemma unit_A : f Unitary = true -> (conjmx A)^T = Ai.
Proof. by move/(hf (k := Unitary)); rewrite /= /FlagsSpec.adjmx conj_tr; exact: inv_is. Qed.
Lemma invol_A : f Involutary = true -> A = Ai.
Proof. by move/(hf (k := Involutary)); exact: inv_is. Qed.
Lemma real_Ai : f Real = true -> conjmx Ai = Ai.
Proof.
move=> /real_A cA; case: hinv => [[AiA AAi]|[_ [-> _]]]; last by rewrite /FlagsSpec.conjmx map_mx0.
by apply: inv_is; rewrite -{1}cA -conjmxM AiA conjmx1.
Qed.
Lemma sym_Ai : f Symmetric = true -> Ai^T = Ai.
Proof.
move=> /sym_A cA; case: hinv => [[AiA AAi]|[_ [-> _]]]; last by rewrite trmx0.
by apply: inv_is; rewrite -{1}cA -trmx_mul AAi trmx1.
Qed.
Lemma herm_Ai : f Hermitian = true -> (conjmx Ai)^T = Ai.
Proof.
move=> /herm_A cA; case: hinv => [[AiA AAi]|[_ [-> _]]]; last by rewrite /FlagsSpec.conjmx map_mx0 trmx0.
by apply: inv_is; rewrite -{1}cA -trmx_mul -conjmxM AAi conjmx1 trmx1.
Qed.

Ltac facts :=
  repeat match goal with
  | H : is_true (f Real) |- _ => move: (real_A H) (real_Ai H) => ? ?; clear H
  | H : is_true (f Symmetric) |- _ => move: (sym_A H) (sym_Ai H) => ? ?; clear H
  | H : is_true (f Hermitian) |- _ => move: (herm_A H) (herm_Ai H) => ? ?; clear H
  | H : is_true (f Orthogonal) |- _ => move: (orth_A H) => ?; clear H
  | H : is_true (f Unitary) |- _ => move: (unit_A H) => ?; clear H
  | H : is_true (f Involutary) |- _ => move: (invol_A H) => ?; clear H
  end.

Notation gC := (gC f rule).
Notation gT0 := (gT0 f rule meth).
Notation gH0 := (gH0 f rule meth).
Notation gTH1 := (gTH1 f rule meth).
Notation gT := (gT f rule meth).
Notation gH := (gH f rule meth).
Notation gI := (gI f rule meth).
Notation gIC := (gIC f rule meth).
Notation gIT0 := (gIT0 f rule meth).
Notation gIH0 := (gIH0 f rule meth).
Notation gITH1 := (gITH1 f rule meth).
Notation gIT := (gIT f rule meth).
Notation gIH := (gIH f rule meth).

Definition oslotE (o : option node) (M : (mx R n n * mx R n n)%type) : Prop := if o is Some x then slotE x = M else True.

Ltac fin := facts; rewrite /slotE /bitsE /= /FlagsSpec.adjmx;
  generalize (conj_tr A) (conj_tr Ai) (trmxK A) (trmxK Ai) (conjmxK conjK A) (conjmxK conjK Ai)
    (conj_tr (conjmx A)) (conj_tr (conjmx Ai)) (trmxK (conjmx A)) (trmxK (conjmx Ai)) => *; congruence.

Lemma gC_E : slotE gC = bitsE (true, false, false).
Proof. by rewrite /AssocModel.gC; case: ifP => [hr|_]; [fin|case: ifP]. Qed.
Lemma gT0_E : oslotE gT0 (bitsE (false, true, false)).
Proof.
rewrite /AssocModel.gT0; case: ifP => [hs|_]; first by rewrite /oslotE; fin.
by do 4 case: ifP => // _.
Qed.
Lemma gH0_E : oslotE gH0 (bitsE (true, true, false)).
Proof.
rewrite /AssocModel.gH0; case: ifP => [hs|_]; first by rewrite /oslotE; fin.
case: ifP => [hs|_]; first by rewrite /oslotE gC_E; fin.
case: ifP => [hr|_].
  by have := gT0_E; rewrite /oslotE; case: gT0 => // x ->; fin.
by do 3 case: ifP => [//|_] /=; rewrite /FlagsSpec.adjmx.
Qed.
Lemma gTH1_E : slotE (fst gTH1) = bitsE (false, true, false) /\ oslotE (snd gTH1) (bitsE (true, true, false)).
Proof.
have := gT0_E; have := gH0_E; rewrite /AssocModel.gTH1; case: gT0 => [x|]; case: gH0 => [y|] //= hy hx.
- by case: ifP => [hr|_] //=; split=> //; rewrite hy; fin.
- by split=> //; case: ifP => [hr|_] //=; fin.
Qed.
Lemma gT_E : slotE gT = bitsE (false, true, false).
Proof. by have [] := gTH1_E. Qed.
Lemma gH_E : slotE gH = bitsE (true, true, false).
Proof. by have [_] := gTH1_E; rewrite /AssocModel.gH; case: (snd gTH1). Qed.
Lemma gI_E : slotE gI = bitsE (false, false, true).
Proof.
rewrite /AssocModel.gI; case: ifP => [hs|_]; first by fin.
case: ifP => [hs|_]; first by rewrite gT_E; fin.
case: ifP => [hs|_]; first by rewrite gH_E; fin.
by case: ifP.
Qed.
Lemma gIC_E : slotE gIC = bitsE (true, false, true).
Proof.
rewrite /AssocModel.gIC; case: ifP => [hs|_]; first by rewrite gI_E; fin.
case: ifP => [hs|_]; first by rewrite gH_E; fin.
case: ifP => [hs|_]; first by rewrite gT_E; fin.
case: ifP => [hs|_]; first by rewrite gC_E; fin.
by case: ifP.
Qed.
Lemma gIT0_E : oslotE gIT0 (bitsE (false, true, true)).
Proof.
rewrite /AssocModel.gIT0 /oslotE; case: ifP => [hs|_]; first by fin.
case: ifP => [hs|_]; first by rewrite gI_E; fin.
case: ifP => [hs|_]; first by rewrite gC_E; fin.
case: ifP => [hs|_]; first by rewrite gT_E; fin.
by do 2 case: ifP => [//|_].
Qed.
Lemma gIH0_E : oslotE gIH0 (bitsE (true, true, true)).
Proof.
rewrite /AssocModel.gIH0 /oslotE; case: ifP => [hs|_]; first by fin.
case: ifP => [hs|_]; first by rewrite gI_E; fin.
case: ifP => [hs|_]; first by rewrite gC_E; fin.
case: ifP => [hs|_]; first by rewrite gH_E; fin.
case: ifP => [hs|_]; first by rewrite gIC_E; fin.
case: ifP => [hs|_].
  by have := gIT0_E; rewrite /oslotE; case: gIT0 => // x ->; fin.
by do 2 case: ifP => [//|_] /=; rewrite /FlagsSpec.adjmx.
Qed.
Lemma gITH1_E : slotE (fst gITH1) = bitsE (false, true, true) /\ oslotE (snd gITH1) (bitsE (true, true, true)).
Proof.
have := gIT0_E; have := gIH0_E; rewrite /AssocModel.gITH1; case: gIT0 => [x|]; case: gIH0 => [y|] //= hy hx.
- by case: ifP => [hr|_] //=; split=> //; rewrite hy; fin.
- by split=> //; case: ifP => [hr|_] //=; fin.
Qed.
Lemma gIT_E : slotE gIT = bitsE (false, true, true).
Proof. by have [] := gITH1_E. Qed.
Lemma gIH_E : slotE gIH = bitsE (true, true, true).
Proof. by have [_] := gITH1_E; rewrite /AssocModel.gIH; case: (snd gITH1). Qed.

Lemma slot_E b : slotE (slot b) = bitsE b.
Proof.
by case: b => [[[] []] []]; rewrite /slot /t /generate /=;
   [apply: gIH_E|apply: gH_E|apply: gIC_E|apply: gC_E|apply: gIT_E|apply: gT_E|apply: gI_E|].
Qed.

(** ** The pointers *)
Definition right_pointers (o : node) (p : pointers) : Prop :=
  exists b, [/\ o = slot b, pC p = slot (bits_attr b AC), pT p = slot (bits_attr b AT),
    pH p = slot (bits_attr b AH) & pI p = slot (bits_attr b AI)].

Lemma write_spec o c tt h i hp x : write o c tt h i hp x = if node_eqb x o then
  Some {| pC := c; pT := tt; pH := h; pI := i |} else hp x.
Proof. by []. Qed.

Lemma link_right o p : link t o = Some p -> right_pointers o p.
Proof.
rewrite /link !write_spec.
case: ifP => [/node_eqbP -> [<-]|_]; first by exists (true, true, true).
case: ifP => [/node_eqbP -> [<-]|_]; first by exists (false, true, true).
case: ifP => [/node_eqbP -> [<-]|_]; first by exists (true, false, true).
case: ifP => [/node_eqbP -> [<-]|_]; first by exists (false, false, true).
case: ifP => [/node_eqbP -> [<-]|_]; first by exists (true, true, false).
case: ifP => [/node_eqbP -> [<-]|_]; first by exists (false, true, false).
case: ifP => [/node_eqbP -> [<-]|_]; first by exists (true, false, false).
by case: ifP => [/node_eqbP -> [<-]|//]; exists (false, false, false).
Qed.

Lemma link_total b : exists p, link t (slot b) = Some p.
Proof.
rewrite /link !write_spec.
case: b => [[[] []] []]; rewrite /slot ?node_eqb_refl; do 8? (case: ifP => _; first by eexists); by eexists.
Qed.

Theorem follow_denotes path b :
  exists o, follow (link t) (slot b) path = Some o /\ (exists b', o = slot b') /\
            slotE o = fold_left (@apply_attr _ conj n) path (bitsE b).
Proof.
elim: path b => [|a path IH] b /=; first by exists (slot b); split=> //; split; [exists b|exact: slot_E].
rewrite /get; have [p hp] := link_total b; rewrite hp.
have [b' [e hC hT hH hI]] := link_right hp.
have eb : bitsE b = bitsE b' by rewrite -!slot_E e.
rewrite eb bitsE_attr.
have -> : match a with AC => pC p | AT => pT p | AH => pH p | AI => pI p end = slot (bits_attr b' a) by case: a.
exact: IH.
Qed.

(** ** What the objects compute *)
Hypothesis hmeth : right_methods conj A Ai rule meth rsem msem.
Notation sem := (sem conj A rsem msem).

Definition semok (o : node) (b : bool * bool * bool) : Prop := forall M, sem o = Some M -> M = (fst (bitsE b)).
Definition osemok (o : option node) (b : bool * bool * bool) : Prop := if o is Some x then semok x b else True.

Lemma ruleE g : rule g -> rsem g = path_matrix conj A Ai (slot_path g). Proof. exact: (proj1 hmeth). Qed.
Lemma methE g : meth g -> msem g = path_matrix conj A Ai (slot_path g).
Proof. by move=> h; apply: (proj2 hmeth); left. Qed.
Lemma methC : msem aC = conjmx A. Proof. by apply: (proj2 hmeth); right. Qed.

Lemma noinv_rule g : In g [aI; aIC; aIT; aIH] -> rule g -> Ai *m A = onemx n.
Proof. by move=> hg hr; case: hinv => [[]//|[_ [_ /(_ g hg) [e _]]]]; rewrite e in hr. Qed.

Ltac done_rule :=
  repeat match goal with H : is_true (_ && _) |- _ => move/andP: H => [? ?] end;
  match goal with
  | H : is_true (rule ?g) |- semok (New _ (SRule ?g)) _ => move=> M /= [<-]; rewrite (ruleE H) /path_matrix; fin
  | H : is_true (meth ?g) |- semok (New _ (SMethod ?g)) _ => move=> M /= [<-]; rewrite (methE H) /path_matrix; fin
  | |- semok (New _ (SMethod aC)) _ => move=> M /= [<-]; rewrite methC; fin
  | |- semok Self _ => move=> M [<-]; fin
  | |- semok (New _ SNone) _ => by []
  end.

Lemma semok_conv o b b' : semok o b -> (fst (bitsE b)) = (fst (bitsE b')) -> semok o b'.
Proof. by move=> h e M /h ->. Qed.
Lemma semok_conj g o b b' : semok o b -> conjmx (fst (bitsE b)) = (fst (bitsE b')) -> semok (New g (SConjOf o)) b'.
Proof.
rewrite /semok => h e M.
rewrite -[sem (New g (SConjOf o))]/(if sem o is Some M' then Some (conjmx M') else None).
by case: (sem o) h => [M'|//] h [<-]; rewrite (h _ erefl).
Qed.

Lemma gC_S : semok gC (true, false, false).
Proof. by rewrite /AssocModel.gC; case: ifP => [hr|_]; [done_rule|case: ifP => ?; done_rule]. Qed.
Lemma gT0_S : osemok gT0 (false, true, false).
Proof.
rewrite /AssocModel.gT0; case: ifP => [hs|_]; first by rewrite /osemok; done_rule.
by do 4! (case: ifP => [?|_]; first by rewrite /osemok; done_rule).
Qed.
Lemma gH0_S : osemok gH0 (true, true, false).
Proof.
rewrite /AssocModel.gH0; case: ifP => [hs|_]; first by rewrite /osemok; done_rule.
case: ifP => [hs|_]; first by apply: (semok_conv gC_S); fin.
case: ifP => [hr|_].
  by have := gT0_S; rewrite /osemok; case: gT0 => // x h; apply: (semok_conv h); fin.
by do 3! (case: ifP => [?|_]; first by rewrite /osemok; done_rule).
Qed.
Lemma gTH1_S : semok (fst gTH1) (false, true, false) /\ osemok (snd gTH1) (true, true, false).
Proof.
have := gT0_S; have := gH0_S; rewrite /AssocModel.gTH1; case: gT0 => [x|]; case: gH0 => [y|] //= hy hx.
- by case: ifP => [hr|_] //=; split=> //; [apply: (semok_conv hy); fin|apply: (semok_conj hy); fin].
- by split=> //; case: ifP => [hr|_] //=.
Qed.
Lemma gT_S : semok gT (false, true, false).
Proof. by have [] := gTH1_S. Qed.
Lemma gH_S : semok gH (true, true, false).
Proof.
by have [] := gTH1_S; rewrite /AssocModel.gH; case: (snd gTH1) => //= _ _; apply: (semok_conj gT_S); fin.
Qed.
Lemma gI_S : semok gI (false, false, true).
Proof.
rewrite /AssocModel.gI; case: ifP => [hs|_]; first by done_rule.
case: ifP => [hs|_]; first by apply: (semok_conv gT_S); fin.
case: ifP => [hs|_]; first by apply: (semok_conv gH_S); fin.
by do 2! (case: ifP => [?|_]; first by done_rule).
Qed.
Lemma gIC_S : semok gIC (true, false, true).
Proof.
rewrite /AssocModel.gIC; case: ifP => [hs|_]; first by apply: (semok_conv gI_S); fin.
case: ifP => [hs|_]; first by apply: (semok_conv gH_S); fin.
case: ifP => [hs|_]; first by apply: (semok_conv gT_S); fin.
case: ifP => [hs|_]; first by apply: (semok_conv gC_S); fin.
do 2! (case: ifP => [?|_]; first by done_rule).
by apply: (semok_conj gI_S); fin.
Qed.
Lemma gIT0_S : osemok gIT0 (false, true, true).
Proof.
rewrite /AssocModel.gIT0 /osemok; case: ifP => [hs|_]; first by done_rule.
case: ifP => [hs|_]; first by apply: (semok_conv gI_S); fin.
case: ifP => [hs|_]; first by apply: (semok_conv gC_S); fin.
case: ifP => [hs|_]; first by apply: (semok_conv gT_S); fin.
by do 2! (case: ifP => [?|_]; first by done_rule).
Qed.
Lemma gIH0_S : osemok gIH0 (true, true, true).
Proof.
rewrite /AssocModel.gIH0 /osemok; case: ifP => [hs|_]; first by done_rule.
case: ifP => [hs|_]; first by apply: (semok_conv gI_S); fin.
case: ifP => [hs|_]; first by apply: (semok_conv gC_S); fin.
case: ifP => [hs|_]; first by apply: (semok_conv gH_S); fin.
case: ifP => [hs|_]; first by apply: (semok_conv gIC_S); fin.
case: ifP => [hs|_].
  by have := gIT0_S; rewrite /osemok; case: gIT0 => // x h; apply: (semok_conv h); fin.
by do 2! (case: ifP => [?|_]; first by done_rule).
Qed.
Lemma gITH1_S : semok (fst gITH1) (false, true, true) /\ osemok (snd gITH1) (true, true, true).
Proof.
have := gIT0_S; have := gIH0_S; rewrite /AssocModel.gITH1; case: gIT0 => [x|]; case: gIH0 => [y|] //= hy hx.
- by case: ifP => [hr|_] //=; split=> //; [apply: (semok_conv hy); fin|apply: (semok_conj hy); fin].
- by split=> //; case: ifP => [hr|_] //=.
Qed.
Lemma gIT_S : semok gIT (false, true, true).
Proof. by have [] := gITH1_S. Qed.
Lemma gIH_S : semok gIH (true, true, true).
Proof.
by have [] := gITH1_S; rewrite /AssocModel.gIH; case: (snd gITH1) => //= _ _; apply: (semok_conj gIT_S); fin.
Qed.
Lemma slot_S b : semok (slot b) b.
Proof.
by case: b => [[[] []] []]; rewrite /slot /t /generate /=;
   [apply: gIH_S|apply: gH_S|apply: gIC_S|apply: gC_S|apply: gIT_S|apply: gT_S|apply: gI_S|move=> M [<-]].
Qed.

Theorem path_denotation path :
  exists o, follow (link t) Self path = Some o /\
            forall M, sem o = Some M -> M = path_matrix conj A Ai path.
Proof.
have [o [ho [[b' eb] es]]] := follow_denotes path (false, false, false).
exists o; split; first exact: ho.
move=> M; rewrite /path_matrix -[(A, Ai)]/(bitsE (false, false, false)) -es eb slot_E.
exact: slot_S.
Qed.
End Denote.

(** ** Identity of the objects *)
Definition flag7 (v : list bool) : flags := fun k =>
  match k with
  | Real => nth 0 v false | Symmetric => nth 1 v false | Hermitian => nth 2 v false | Idempotent => nth 3 v false
  | Involutary => nth 4 v false | Orthogonal => nth 5 v false | Unitary => nth 6 v false | _ => false
  end.
Definition vec7 (f : flags) : list bool :=
  [f Real; f Symmetric; f Hermitian; f Idempotent; f Involutary; f Orthogonal; f Unitary].
Definition assoc7 (v : list bool) : assoc -> bool := fun g =>
  match g with
  | aC => nth 0 v false | aT => nth 1 v false | aH => nth 2 v false | aI => nth 3 v false
  | aIC => nth 4 v false | aIT => nth 5 v false | aIH => nth 6 v false
  end.
Definition vecA (r : assoc -> bool) : list bool := [r aC; r aT; r aH; r aI; r aIC; r aIT; r aIH].

Lemma generate_ext f f' r r' m m' :
  vec7 f = vec7 f' -> vecA r = vecA r' -> tl (vecA m) = tl (vecA m') -> generate f r m = generate f' r' m'.
Proof.
move=> [e1 e2 e3 e4 e5 e6 e7] [a1 a2 a3 a4 a5 a6 a7] [b2 b3 b4 b5 b6 b7].
have hC : gC f r = gC f' r' by rewrite /gC e1 a1.
have hT0 : gT0 f r m = gT0 f' r' m' by rewrite /gT0 e1 e2 e6 a2 a3 a4 b2.
have hH0 : gH0 f r m = gH0 f' r' m' by rewrite /gH0 e1 e2 e3 e7 hC hT0 a3 a4 b3.
have h1 : gTH1 f r m = gTH1 f' r' m' by rewrite /gTH1 hT0 hH0 e1.
have hT : gT f r m = gT f' r' m' by rewrite /gT h1.
have hH : gH f r m = gH f' r' m' by rewrite /gH h1 hT.
have hI : gI f r m = gI f' r' m' by rewrite /gI hT hH e5 e6 e7 a4 b4.
have hIC : gIC f r m = gIC f' r' m' by rewrite /gIC hI hH hT hC e1 e5 e6 e7 a5 b5.
have hIT0 : gIT0 f r m = gIT0 f' r' m' by rewrite /gIT0 hI hC hT e2 e5 e6 e7 a6 b6.
have hIH0 : gIH0 f r m = gIH0 f' r' m' by rewrite /gIH0 hI hC hH hIC hIT0 e1 e2 e3 e5 e6 e7 a7 b7.
have h2 : gITH1 f r m = gITH1 f' r' m' by rewrite /gITH1 hIT0 hIH0 e1.
have hIT : gIT f r m = gIT f' r' m' by rewrite /gIT h2.
by rewrite /generate hC hT hH hI hIC hIT /gIH h2 hIT.
Qed.

Definition alg (k : flag) : bool :=
  match k with Real | Symmetric | Hermitian | Idempotent | Involutary | Orthogonal | Unitary => true | _ => false end.
Definition agree (f f' : flags) : Prop := forall k, alg k -> f k = f' k.
Lemma agree_vec f f' : agree f f' <-> vec7 f = vec7 f'.
Proof.
split; first by move=> h; rewrite /vec7 !h.
by move=> [e1 e2 e3 e4 e5 e6 e7] [].
Qed.
Lemma agree_when b k f f' : agree f f' -> agree (when b k f) (when b k f').
Proof. by move=> h k' hk; case: b => /=; rewrite ?set_flag_get ?h. Qed.
Lemma agree_when_f k0 k f f' : alg k0 -> agree f f' -> agree (when (f k0) k f) (when (f' k0) k f').
Proof. by move=> h0 h; rewrite (h k0 h0); exact: agree_when. Qed.
Lemma agree_deduce f f' nc : agree f f' -> agree (deduce f nc) (deduce f' nc).
Proof.
rewrite !deduce_steps => h0.
have h1 : agree (st1 nc f) (st1 nc f') by exact: agree_when.
move: (st1 nc f) (st1 nc f') h1 => {h0}f {}f' h0.
have h1 : agree (st2 f) (st2 f').
  by rewrite /st2 h0 //; case: ifP => // _; do 4 apply: agree_when_f => //.
move: (st2 f) (st2 f') h1 => {h0}f {}f' h0.
have h1 : agree (st3 f) (st3 f').
  by rewrite /st3 h0 //; case: ifP => // _; do 2 apply: agree_when_f => //.
move: (st3 f) (st3 f') h1 => {h0}f {}f' h0.
have h1 : agree (st4 f) (st4 f').
  by rewrite /st4 h0 //; case: ifP => // _; do 2 apply: agree_when_f => //.
move: (st4 f) (st4 f') h1 => {h0}f {}f' h0.
have h1 : agree (st5 f) (st5 f').
  by rewrite /st5 h0 //; case: ifP => // _; do 4 apply: agree_when_f => //.
move: (st5 f) (st5 f') h1 => {h0}f {}f' h0.
rewrite /st6 !h0 //; case: ifP => // _; case: ifP => // _.
by move=> k hk; rewrite /set_flags /replace /imply_linear /=; case: k hk => //= _; rewrite h0.
Qed.

Fixpoint vecs (k : nat) : list (list bool) :=
  if k is S k' then map (cons true) (vecs k') ++ map (cons false) (vecs k') else [[]].
Lemma vecs_all k (v : list bool) : length v = k -> In v (vecs k).
Proof.
elim: k v => [|k IH] [|b v] //=; first by left.
move=> [/IH h]; apply: in_or_app; by case: b; [left|right]; apply: in_map.
Qed.
Definition memb (v : list bool) (l : list (list bool)) : bool := existsb (fun w => if list_eq_dec Bool.bool_dec v w then true else false) l.
Lemma memb_In v l : memb v l -> In v l.
Proof. by move=> /existsb_exists [w [hw]]; case: list_eq_dec => [e _|//]; rewrite e. Qed.

Definition bits8 : list (bool * bool * bool) :=
  [(true, true, true); (true, true, false); (true, false, true); (true, false, false);
      (false, true, true); (false, true, false); (false, false, true); (false, false, false)].
Definition oeqb (a b : option node) : bool :=
  match a, b with Some x, Some y => node_eqb x y | None, None => true | _, _ => false end.
Definition tslot (t : table) (b : bool * bool * bool) : node :=
  match b with
  | (false, false, false) => Self
  | (true, false, false) => nC t | (false, true, false) => nT t | (true, true, false) => nH t
  | (false, false, true) => nI t | (true, false, true) => nIC t | (false, true, true) => nIT t
  | (true, true, true) => nIH t
  end.
Definition table_ok (t : table) : bool :=
  let hp := link t in
  forallb (fun b => forallb (fun a => oeqb (get hp (tslot t b) a) (Some (tslot t (bits_attr b a)))) [AC; AT; AH; AI]) bits8.
Lemma table_okP t b a : table_ok t = true -> get (link t) (tslot t b) a = Some (tslot t (bits_attr b a)).
Proof.
have hb : In b bits8 by case: b => [[[] []] []]; rewrite /bits8 /=; tauto.
have ha : In a [AC; AT; AH; AI] by case: a; rewrite /=; tauto.
move=> /forallb_forall h; move: (h b hb) => /forallb_forall /(_ a ha).
by case: (get _ _ _) => //= x /node_eqbP ->.
Qed.

Definition coherent_vecs : list (list bool) := Eval vm_compute in
  nodup (list_eq_dec Bool.bool_dec) (filter (fun v => coherent (flag7 v))
    (map (fun v => vec7 (deduce (flag7 v) true)) (vecs 7) ++ map (fun v => vec7 (deduce (flag7 v) false)) (vecs 7))).

Lemma tables_ok :
  forallb (fun v => forallb (fun r => forallb (fun m => table_ok (generate (flag7 v) (assoc7 r) (assoc7 (true :: m))))
    (vecs 6)) (vecs 7)) coherent_vecs = true.
Proof. by vm_compute. Qed.


Lemma all_vecs (P : list bool -> bool) k v : forallb P (vecs k) = true -> length v = k -> P v = true.
Proof. by move=> /forallb_forall h e; apply: h; apply: vecs_all. Qed.

Lemma coherent_flag7 f : coherent (flag7 (vec7 f)) = coherent f.
Proof. by []. Qed.

Lemma coherent_vec f0 nc : coherent (deduce f0 nc) -> In (vec7 (deduce f0 nc)) coherent_vecs.
Proof.
have e : vec7 (deduce f0 nc) = vec7 (deduce (flag7 (vec7 f0)) nc).
  by apply/agree_vec; apply: agree_deduce; apply/agree_vec.
rewrite -[coherent (deduce f0 nc)]coherent_flag7 e; have H : forallb (fun v => (coherent (flag7 (vec7 (deduce (flag7 v) true))) ==>
    memb (vec7 (deduce (flag7 v) true)) coherent_vecs) && (coherent (flag7 (vec7 (deduce (flag7 v) false))) ==>
    memb (vec7 (deduce (flag7 v) false)) coherent_vecs)) (vecs 7) = true by vm_compute.
have {H} := all_vecs H (erefl : length (vec7 f0) = 7%nat).
case: nc {e} => /andP [/implyP h1 /implyP h2] h; apply: memb_In; [exact: h1|exact: h2].
Qed.

Lemma link_slots f0 nc r m b a : coherent (deduce f0 nc) ->
  get (link (generate (deduce f0 nc) r m)) (tslot (generate (deduce f0 nc) r m) b) a =
  Some (tslot (generate (deduce f0 nc) r m) (bits_attr b a)).
Proof.
move=> hc.
have et : generate (deduce f0 nc) r m = generate (flag7 (vec7 (deduce f0 nc))) (assoc7 (vecA r)) (assoc7 (true :: tl (vecA m))).
  by apply: generate_ext.
have /forallb_forall /(_ _ (coherent_vec hc)) h := tables_ok.
have {}h := all_vecs h (erefl : length (vecA r) = 7%nat).
have {}h := all_vecs h (erefl : length (tl (vecA m)) = 6%nat).
by apply: table_okP; rewrite et.
Qed.

Theorem same_object f0 nc r m p q : coherent (deduce f0 nc) -> bits p = bits q ->
  follow (link (generate (deduce f0 nc) r m)) Self p = follow (link (generate (deduce f0 nc) r m)) Self q /\
  follow (link (generate (deduce f0 nc) r m)) Self p <> None.
Proof.
move=> hc e; set t := generate _ r m.
have key path : forall b, follow (link t) (tslot t b) path = Some (tslot t (fold_left bits_attr path b)).
  elim: path => [|a path IH] b //=; by rewrite link_slots.
have kp := key p (false, false, false); have kq := key q (false, false, false).
by rewrite -[Self]/(tslot t (false, false, false)) kp kq -/(bits p) -/(bits q) e.
Qed.

(** A complex operator declared hermitian: A.H is A but A.H.C is not A.T. *)
Theorem same_object_refuted : exists (f : flags) (r m : assoc -> bool) (p q : list attr),
  f = deduce (set_flag Hermitian default_flags) false /\ bits p = bits q /\
  follow (link (generate f r m)) Self p <> follow (link (generate f r m)) Self q.
Proof.
by exists (deduce (set_flag Hermitian default_flags) false), (fun _ => false), (fun _ => true), [AH; AC], [AT].
Qed.

(** ** Availability *)
Section Available.
Variables (R : cring) (conj : conjugation R) (n : nat) (A : mx R n n) (rsem msem : assoc -> mx R n n).
Notation sem := (sem conj A rsem msem).
Variables (f : flags) (rule meth : assoc -> bool).

Lemma sem_conj g o : sem o <> None -> sem (New g (SConjOf o)) <> None.
Proof.
rewrite -[sem (New g (SConjOf o))]/(if sem o is Some M' then Some (conjmx conj M') else None).
by case: (sem o).
Qed.
Lemma gC_avail : sem (gC f rule) <> None.
Proof. by rewrite /gC; case: ifP => // _; case: ifP. Qed.
Lemma transpose_available :
  rule aT || meth aT || rule aH || (~~ f Real && meth aH) ->
  sem (nT (generate f rule meth)) <> None /\ sem (nH (generate f rule meth)) <> None.
Proof.
move=> h; rewrite /generate /nT /nH /gH /gT.
have hT : gT0 f rule meth <> None -> sem (odflt Self (gT0 f rule meth)) <> None.
  by rewrite /gT0; do 5 (case: ifP => // _).
have hH : gH0 f rule meth <> None -> sem (odflt Self (gH0 f rule meth)) <> None.
  rewrite /gH0; case: ifP => // _; case: ifP => [_ _|_]; first exact: gC_avail.
  by case: ifP => // _; do 3 (case: ifP => // _).
have hex : gT0 f rule meth <> None \/ gH0 f rule meth <> None.
  case e1 : (gT0 f rule meth) => [x|]; first by left.
  case e2 : (gH0 f rule meth) => [x|]; first by right.
  move: e1 e2 h; rewrite /gH0 /gT0.
  by case: (f Symmetric) => //; case: (rule aT) => //; case: (f Hermitian) => //; case: (f Real) => //=;
     case: (rule aH) => //; case: (f Orthogonal && rule aI) => //; case: (f Unitary && rule aI) => //;
     case: (meth aT) => //; case: (meth aH).
rewrite /gTH1; move: hT hH hex; case: (gT0 f rule meth) => [x|]; case: (gH0 f rule meth) => [y|] /=.
- by move=> hx hy _; split; [exact: hx|exact: hy].
- by move=> hx _ _; split; [exact: hx|apply: sem_conj; exact: hx].
- by move=> _ hy _; case: ifP => _ /=; split; try exact: hy; apply: sem_conj; exact: hy.
- by move=> _ _ [].
Qed.

Lemma inverse_available :
  f Orthogonal = false -> f Unitary = false -> rule aI || meth aI ->
  sem (nI (generate f rule meth)) <> None /\ sem (nIC (generate f rule meth)) <> None.
Proof.
move=> ho hu h; rewrite /generate /nI /nIC /gIC ho hu.
have hI : sem (gI f rule meth) <> None.
  by rewrite /gI ho hu; case: ifP => // _; move: h; case: (rule aI) => //=; case: (meth aI).
split=> //; case: ifP => // _; case: ifP => [_|_]; first exact: gC_avail.
case: ifP => // _; case: ifP => // _; exact: sem_conj.
Qed.

(** A real operator that only defines the method adjoint has no transpose and no adjoint; an orthogonal one that only
    defines the method inverse has no inverse. *)
Lemma adjoint_lost : f Real -> f Symmetric = false -> f Hermitian = false -> f Orthogonal = false ->
  rule aT = false -> meth aT = false -> rule aH = false ->
  sem (nT (generate f rule meth)) = None /\ sem (nH (generate f rule meth)) = None.
Proof. by move=> e1 e2 e3 e4 e5 e6 e7; rewrite /generate /nT /nH /gT /gH /gTH1 /gH0 /gT0 e1 e2 e3 e4 e5 e6 e7. Qed.
End Available.

Lemma involution_self f0 nc r m a : coherent (deduce f0 nc) ->
  follow (link (generate (deduce f0 nc) r m)) Self [a; a] = Some Self.
Proof. by move=> hc; have [-> _] := @same_object f0 nc r m [a; a] [] hc (ltac:(by case: a)). Qed.

Lemma adjoint_refuted : exists (f : flags) (rule meth : assoc -> bool),
  init_flags noflags (DString [Linear; Real]) false None = Ok f /\ meth aH = true /\
  forall (R : cring) (conj : conjugation R) (n : nat) (A : mx R n n) (rsem msem : assoc -> mx R n n),
  AssocSpec.sem conj A rsem msem (nH (generate f rule meth)) = None.
Proof.
by eexists _, (fun _ => false), (fun g => if g is aH then true else false); split; last split.
Qed.
Lemma inverse_refuted : exists (f : flags) (rule meth : assoc -> bool),
  init_flags noflags (DString [Orthogonal]) false None = Ok f /\ meth aI = true /\
  forall (R : cring) (conj : conjugation R) (n : nat) (A : mx R n n) (rsem msem : assoc -> mx R n n),
  AssocSpec.sem conj A rsem msem (nI (generate f rule meth)) = None.
Proof.
by eexists _, (fun _ => false), (fun g => if g is aI then true else false); split; last split.
Qed.
