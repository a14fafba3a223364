(** Proofs about the associated operators of sums, products and groups. *)
From Coq Require Import Eqdep_dec.
From Verif Require Import Base FlagsModel Algebra Matrix FlagsSpec FlagsProofs AssocModel AssocSpec AssocProofs AdjModel AdjSpec Gauss.

Section Values.
Context {R : cring} (conj : conjugation R).
Hypothesis conjK : forall a, conj (conj a) = a.
Notation value := (value R).
Notation vconj := (vconj conj).

Ltac dv v := let m := fresh "m" in let n := fresh "n" in let A := fresh "A" in destruct v as [[m [n A]]|].
Ltac uip := repeat match goal with e : ?n = ?n |- _ => rewrite (UIP_refl_nat n e); clear e end; cbn [eq_rect].

Lemma vconjK (v : value) : vconj (vconj v) = v.
Proof. dv v; [|reflexivity]. cbn. unfold matrix. do 3 f_equal. apply conjmxK. exact conjK. Qed.
Lemma vtrK (v : value) : vtr (vtr v) = v.
Proof. dv v; [|reflexivity]. cbn. unfold matrix. do 3 f_equal. apply trmxK. Qed.
Lemma vconj_tr (v : value) : vconj (vtr v) = vtr (vconj v).
Proof. dv v; [|reflexivity]. cbn. unfold matrix. do 3 f_equal. apply map_trmx. Qed.
Lemma vconj_mul (v w : value) : vconj (vmul v w) = vmul (vconj v) (vconj w).
Proof.
  dv v; [|reflexivity]. dv w; [|reflexivity]. cbn. destruct (Nat.eq_dec m0 n) as [e|e]; [|reflexivity]. destruct e. cbn. unfold matrix. do 3 f_equal. apply map_mxM.
Qed.
Lemma vconj_add (v w : value) : vconj (vadd v w) = vadd (vconj v) (vconj w).
Proof.
  dv v; [|reflexivity]. dv w; [|reflexivity]. cbn. destruct (Nat.eq_dec m0 m) as [e|e]; [|reflexivity]. destruct e.
  destruct (Nat.eq_dec n0 n) as [e|e]; [|reflexivity]. destruct e. cbn. unfold matrix. do 3 f_equal. apply map_mxD.
Qed.
Lemma vtr_mul (v w : value) : vtr (vmul v w) = vmul (vtr w) (vtr v).
Proof.
  dv v; [|dv w; reflexivity]. dv w; [|reflexivity]. cbn. destruct (Nat.eq_dec m0 n) as [e|e].
  - destruct e. destruct (Nat.eq_dec m0 m0) as [e|e]; [|congruence]. uip. cbn. unfold matrix. do 3 f_equal. apply trmx_mul.
  - destruct (Nat.eq_dec n m0); [congruence|reflexivity].
Qed.
Lemma vtr_add (v w : value) : vtr (vadd v w) = vadd (vtr v) (vtr w).
Proof.
  dv v; [|reflexivity]. dv w; [|reflexivity]. cbn. destruct (Nat.eq_dec m0 m) as [e|e].
  - destruct e. destruct (Nat.eq_dec n0 n) as [e|e]; [|reflexivity]. destruct e. cbn. unfold matrix. do 3 f_equal. apply trmxD.
  - destruct (Nat.eq_dec n0 n); reflexivity.
Qed.
Lemma vmulA (u v w : value) : vmul u (vmul v w) = vmul (vmul u v) w.
Proof.
  dv u; [|reflexivity]. dv v; [|reflexivity]. dv w; [|cbn; destruct (Nat.eq_dec m0 n); reflexivity]. cbn.
  destruct (Nat.eq_dec m1 n0) as [e|e].
  - destruct e. cbn. destruct (Nat.eq_dec m0 n) as [e|e]; [|reflexivity]. destruct e. cbn. destruct (Nat.eq_dec m1 m1) as [e|e]; [|congruence]. uip. unfold matrix. do 3 f_equal. apply mulmxA.
  - destruct (Nat.eq_dec m0 n) as [e'|e']; [|reflexivity]. cbn. destruct (Nat.eq_dec m1 n0); [congruence|reflexivity].
Qed.
Lemma matrix_inj {n} (A B : mx R n n) : matrix A = matrix B -> A = B.
Proof.
  unfold matrix. intros H. injection H as H. apply (inj_pair2_eq_dec _ Nat.eq_dec) in H. apply (inj_pair2_eq_dec _ Nat.eq_dec) in H. exact H.
Qed.
Lemma matrix_size {m n m' n'} (A : mx R m n) (B : mx R m' n') : matrix A = matrix B -> m = m' /\ n = n'.
Proof.
  intros H. pose proof (f_equal (fun v : value => match v with Some (existT _ m (existT _ n _)) => (m, n) | None => (0, 0) end) H) as E. cbn in E. injection E as -> ->. auto.
Qed.

(** ** Inverses *)
Lemma inverse_sym (v w : value) : inverse v w -> inverse w v.
Proof. intros (n & A & B & E & E' & H & H'). exists n, B, A. auto. Qed.
Lemma inverse_unique (u v w : value) : inverse u v -> inverse u w -> v = w.
Proof.
  intros (n & A & B & E & E' & H & H') (n' & A' & B' & F & F' & G & G'). subst. destruct (matrix_size _ _ F) as (-> & _). apply matrix_inj in F. subst A'.
  f_equal. exact (inv_unique H' G).
Qed.
Lemma inverse_tr (v w : value) : inverse v w -> inverse (vtr v) (vtr w).
Proof.
  intros (n & A & B & -> & -> & H & H'). exists n, (trmx A), (trmx B). split; [reflexivity|]. split; [reflexivity|]. rewrite <- !trmx_mul, H, H', trmx1. auto.
Qed.
Lemma inverse_conj (v w : value) : inverse v w -> inverse (vconj v) (vconj w).
Proof.
  intros (n & A & B & -> & -> & H & H'). exists n, (conjmx conj A), (conjmx conj B). split; [reflexivity|]. split; [reflexivity|].
  unfold conjmx. rewrite <- !map_mxM, H, H', map_mx1. auto.
Qed.
Lemma inverse_mul (a b c d : value) : inverse a b -> inverse c d -> vmul a c <> None -> inverse (vmul a c) (vmul d b).
Proof.
  intros (n & A & B & -> & -> & H & H') (n' & C & D & -> & -> & G & G') N. cbn in *. destruct (Nat.eq_dec n' n) as [e|e]; [|congruence]. destruct e.
  destruct (Nat.eq_dec n' n') as [e|e]; [|congruence]. uip. exists n', (mulmx A C), (mulmx D B). split; [reflexivity|]. split; [reflexivity|]. split.
  - rewrite <- mulmxA, (mulmxA C), G, mul1mx. exact H.
  - rewrite <- mulmxA, (mulmxA B), H', mul1mx. exact G'.
Qed.

(** ** Chains *)
Definition act (c t : bool) (v : value) : value := (if c then vconj else fun v => v) ((if t then vtr else fun v => v) v).
Lemma act_conj c t v : vconj (act c t v) = act (negb c) t v.
Proof. destruct c; cbn; [apply vconjK|reflexivity]. Qed.
Lemma act_tr c t v : vtr (act c t v) = act c (negb t) v.
Proof. destruct c; cbn; [rewrite <- vconj_tr|]; destruct t; cbn; rewrite ?vtrK; reflexivity. Qed.
Lemma act_inverse c t v w : inverse v w -> inverse (act c t v) (act c t w).
Proof. intros H. unfold act. destruct t, c; auto using inverse_tr, inverse_conj. Qed.
Lemma act_invol c t v : act c t (act c t v) = v.
Proof. destruct c, t; cbn; rewrite ?vconj_tr, ?vconjK, ?vtrK; auto. Qed.
Lemma act_act c t c' t' v : act c t (act c' t' v) = act (xorb c c') (xorb t t') v.
Proof.
  destruct c, t, c', t'; cbn; rewrite ?vconj_tr, ?vconjK, ?vtrK; try reflexivity; rewrite ?vconj_tr, ?vconjK, ?vtrK; try reflexivity; rewrite <- ?vconj_tr, ?vtrK, ?vconjK; reflexivity.
Qed.

Notation means := (means conj).
Lemma means_act v c t i w : means v (c, t, i) w <-> exists u, (if i then inverse v u else u = v) /\ w = act c t u.
Proof. reflexivity. Qed.
Lemma means_unique v b w w' : means v b w -> means v b w' -> w = w'.
Proof.
  destruct b as [[c t] i]. rewrite !means_act. intros (u & H & ->) (u' & H' & ->). f_equal. destruct i; [exact (inverse_unique _ _ _ H H')|congruence].
Qed.

Definition xorbits (b b' : bool * bool * bool) : bool * bool * bool :=
  let '(c, t, i) := b in let '(c', t', i') := b' in (xorb c c', xorb t t', xorb i i').

(** A flag says that a chain leads back to the operator. *)
Lemma means_shift v k : means v k v -> forall b w, means v b w -> means v (xorbits b k) w.
Proof.
  destruct k as [[c' t'] i']. intros (u & Hu & E) [[c t] i] w (u' & Hu' & ->). unfold xorbits. rewrite means_act.
  change (v = act c' t' u) in E. change (exists u0, (if xorb i i' then inverse v u0 else u0 = v) /\ act c t u' = act (xorb c c') (xorb t t') u0).
  assert (E2 : act c' t' v = u) by (rewrite E; apply act_invol).
  destruct i, i'; cbn [xorb].
  - exists v. split; [reflexivity|]. rewrite <- act_act. f_equal. rewrite E2. exact (inverse_unique _ _ _ Hu' Hu).
  - subst u. exists (act c' t' u'). split.
    + rewrite <- E2. apply act_inverse. exact Hu'.
    + rewrite act_act. f_equal; [destruct c, c'|destruct t, t']; reflexivity.
  - subst u'. exists u. split; [exact Hu|]. rewrite E at 1. apply act_act.
  - subst u u'. exists v. split; [reflexivity|]. rewrite E at 1. apply act_act.
Qed.

(** ** The table of the associated operators *)
Section Table.
Context (v : value) (f : flags) (rule meth : assoc -> bool) (rules methods : assoc -> option value).
Hypothesis Hf : honest_flags conj v f.
Hypothesis Hp : right_plain conj v rule meth rules methods.
Notation computes := (computes conj v rules methods).
Let t := generate f rule meth.

Lemma real_means : f Real = true -> means v (true, false, false) v.
Proof. intros H. exists v. split; [reflexivity|]. symmetry. apply Hf. exact H. Qed.
Lemma sym_means : f Symmetric = true -> means v (false, true, false) v.
Proof. intros H. exists v. split; [reflexivity|]. symmetry. apply Hf. exact H. Qed.
Lemma herm_means : f Hermitian = true -> means v (true, true, false) v.
Proof. intros H. exists v. split; [reflexivity|]. symmetry. apply Hf. exact H. Qed.
Lemma invol_means : f Involutary = true -> means v (false, false, true) v.
Proof. intros H. exists v. split; [|reflexivity]. apply Hf. exact H. Qed.
Lemma orth_means : f Orthogonal = true -> means v (false, true, true) v.
Proof. intros H. exists (vtr v). split; [apply Hf; exact H|]. cbn. symmetry. apply vtrK. Qed.
Lemma unit_means : f Unitary = true -> means v (true, true, true) v.
Proof. intros H. exists (vconj (vtr v)). split; [apply Hf; exact H|]. cbn. rewrite vconj_tr, vconjK, vtrK. reflexivity. Qed.

(** Two chains that differ by one that leads back to the operator *)
Definition same (b b' : bool * bool * bool) : Prop := means v (xorbits b b') v.
Ltac bits := repeat match goal with b : (bool * bool * bool)%type |- _ => destruct b as [[[] []] []] end; cbn.
Lemma same_refl b : same b b.
Proof. unfold same. replace (xorbits b b) with (false, false, false) by (bits; reflexivity). exists v. split; reflexivity. Qed.
Lemma same_sym a b : same a b -> same b a.
Proof. unfold same. replace (xorbits b a) with (xorbits a b) by (bits; reflexivity). auto. Qed.
Lemma same_trans a b c : same a b -> same b c -> same a c.
Proof.
  unfold same. intros H H'. apply (means_shift v _ H') in H. replace (xorbits a c) with (xorbits (xorbits a b) (xorbits b c)) by (bits; reflexivity). exact H.
Qed.
Lemma same_means a b w : same a b -> means v a w -> means v b w.
Proof. intros H M. apply (means_shift v _ H) in M. replace b with (xorbits a (xorbits a b)) by (bits; reflexivity). exact M. Qed.
Lemma same_attr a b x : same a b -> same (bits_attr a x) (bits_attr b x).
Proof. unfold same. replace (xorbits (bits_attr a x) (bits_attr b x)) with (xorbits a b); [auto|]. destruct x; bits; reflexivity. Qed.
Lemma means_conj b w : means v b w -> means v (bits_attr b AC) (vconj w).
Proof. destruct b as [[c t'] i]. intros (u & Hu & ->). exists u. split; [exact Hu|]. apply act_conj. Qed.

(** What a node stands for *)
Definition tag (o : node) : bool * bool * bool := match o with Self => (false, false, false) | New g _ => AssocSpec.bits (slot_path g) end.
Definition good (o : node) (b : bool * bool * bool) : Prop := same (tag o) b /\ forall w, computes o = Some w -> means v b w.
Definition ogood (o : option node) (b : bool * bool * bool) : Prop := match o with Some o => good o b | None => True end.

Lemma good_same o b b' : same b b' -> good o b -> good o b'.
Proof. intros H (S & M). split; [exact (same_trans _ _ _ S H)|]. intros w E. exact (same_means _ _ _ H (M w E)). Qed.
Lemma good_Self b : same (false, false, false) b -> good Self b.
Proof. intros H. split; [exact H|]. cbn. intros w [= <-]. apply (same_means _ _ _ H). exists v. split; reflexivity. Qed.
Lemma good_rule g r : rule r = true -> same (AssocSpec.bits (slot_path r)) (AssocSpec.bits (slot_path g)) -> good (New g (SRule r)) (AssocSpec.bits (slot_path g)).
Proof. intros H S. split; [apply same_refl|]. cbn. intros w E. apply (same_means _ _ _ S). exact (proj1 Hp r w H E). Qed.
Lemma good_method g : meth g = true \/ g = aC -> good (New g (SMethod g)) (AssocSpec.bits (slot_path g)).
Proof. intros H. split; [apply same_refl|]. cbn. intros w E. exact (proj2 Hp g w H E). Qed.
Lemma good_none g : good (New g SNone) (AssocSpec.bits (slot_path g)).
Proof. split; [apply same_refl|]. discriminate. Qed.
Lemma good_conj g o b : good o b -> bits_attr b AC = AssocSpec.bits (slot_path g) -> good (New g (SConjOf o)) (AssocSpec.bits (slot_path g)).
Proof.
  intros (_ & M) E. split; [apply same_refl|]. intros w H. change (match computes o with Some w => Some (vconj w) | None => None end = Some w) in H.
  destruct (computes o) as [u|]; [|discriminate]. injection H as <-. rewrite <- E. apply means_conj. exact (M u eq_refl).
Qed.

Notation gC := (gC f rule).
Notation gT0 := (gT0 f rule meth).
Notation gH0 := (gH0 f rule meth).
Notation gTH1 := (gTH1 f rule meth).
Notation gT := (gT f rule meth).
Notation gH := (gH f rule meth).
Notation gI := (gI f rule meth).
Notation gIC := (gIC f rule meth).
Notation gIT0 := (gIT0 f rule meth).
Notation gIH0 := (gIH0 f rule meth).
Notation gITH1 := (gITH1 f rule meth).
Notation gIT := (gIT f rule meth).
Notation gIH := (gIH f rule meth).

Ltac mask := first [exact (same_refl _) | match goal with |- same ?a ?b => let k := eval compute in (xorbits a b) in change (means v k v) end; auto using real_means, sym_means, herm_means, invol_means, orth_means, unit_means].
Ltac split_flag :=
  match goal with
  | |- context [if ?c then _ else _] => let E := fresh "E" in destruct c eqn:E
  end.
Ltac andb := repeat match goal with E : (_ && _)%bool = true |- _ => apply andb_true_iff in E; destruct E end.
Ltac leaf := cbn [ogood]; andb;
  match goal with
  | |- True => exact I
  | |- good Self _ => apply good_Self; solve [mask]
  | |- good (New ?g (SRule ?r)) _ => apply (good_rule g r); [assumption|solve [mask | apply same_refl]]
  | |- good (New ?g (SMethod ?r)) _ => apply (good_method g); solve [auto]
  | |- good (New ?g SNone) _ => apply (good_none g)
  end.
(** a slot that is another slot because of a flag *)
Ltac alias L := cbn [ogood]; eapply good_same; [|exact L]; solve [mask].

Lemma gC_good : good gC (true, false, false).
Proof. unfold AssocModel.gC. repeat (split_flag; [leaf|]). leaf. Qed.
Lemma gT0_good : ogood gT0 (false, true, false).
Proof. unfold AssocModel.gT0. repeat (split_flag; [leaf|]). leaf. Qed.
Lemma gH0_good : ogood gH0 (true, true, false).
Proof.
  unfold AssocModel.gH0. split_flag; [leaf|]. split_flag; [alias gC_good|]. split_flag.
  - pose proof gT0_good as G. destruct gT0 as [x|]; [|exact I]. alias G.
  - repeat (split_flag; [leaf|]). leaf.
Qed.
Lemma gTH1_good : good (fst gTH1) (false, true, false) /\ ogood (snd gTH1) (true, true, false).
Proof.
  pose proof gT0_good as GT. pose proof gH0_good as GH. unfold AssocModel.gTH1. destruct gT0 as [x|]; [auto|]. destruct gH0 as [y|].
  - split_flag; cbn [fst snd]; (split; [|exact GH]); [alias GH|]. apply (good_conj aT y (true, true, false)); [exact GH|reflexivity].
  - cbn [fst snd]. split; [leaf|]. split_flag; [|exact I]. cbn [ogood]. apply (good_same _ (false, true, false)); [mask|leaf].
Qed.
Lemma gT_good : good gT (false, true, false).
Proof. exact (proj1 gTH1_good). Qed.
Lemma gH_good : good gH (true, true, false).
Proof.
  pose proof (proj2 gTH1_good) as G. unfold AssocModel.gH. destruct (snd gTH1) as [x|]; [exact G|]. apply (good_conj aH gT (false, true, false)); [exact gT_good|reflexivity].
Qed.
Lemma gI_good : good gI (false, false, true).
Proof.
  unfold AssocModel.gI. split_flag; [leaf|]. split_flag; [alias gT_good|]. split_flag; [alias gH_good|]. repeat (split_flag; [leaf|]). leaf.
Qed.
Lemma gIC_good : good gIC (true, false, true).
Proof.
  unfold AssocModel.gIC. split_flag; [alias gI_good|]. split_flag; [alias gH_good|]. split_flag; [alias gT_good|]. split_flag; [alias gC_good|].
  repeat (split_flag; [leaf|]). apply (good_conj aIC gI (false, false, true)); [exact gI_good|reflexivity].
Qed.
Lemma gIT0_good : ogood gIT0 (false, true, true).
Proof.
  unfold AssocModel.gIT0. split_flag; [leaf|]. split_flag; [alias gI_good|]. split_flag; [alias gC_good|]. split_flag; [alias gT_good|]. repeat (split_flag; [leaf|]). leaf.
Qed.
Lemma gIH0_good : ogood gIH0 (true, true, true).
Proof.
  unfold AssocModel.gIH0. split_flag; [leaf|]. split_flag; [alias gI_good|]. split_flag; [alias gC_good|]. split_flag; [alias gH_good|]. split_flag; [alias gIC_good|]. split_flag.
  - pose proof gIT0_good as G. destruct gIT0 as [x|]; [|exact I]. alias G.
  - repeat (split_flag; [leaf|]). leaf.
Qed.
Lemma gITH1_good : good (fst gITH1) (false, true, true) /\ ogood (snd gITH1) (true, true, true).
Proof.
  pose proof gIT0_good as GT. pose proof gIH0_good as GH. unfold AssocModel.gITH1. destruct gIT0 as [x|]; [auto|]. destruct gIH0 as [y|].
  - split_flag; cbn [fst snd]; (split; [|exact GH]); [alias GH|]. apply (good_conj aIT y (true, true, true)); [exact GH|reflexivity].
  - cbn [fst snd]. split; [leaf|]. split_flag; [|exact I]. cbn [ogood]. apply (good_same _ (false, true, true)); [mask|leaf].
Qed.
Lemma gIT_good : good gIT (false, true, true).
Proof. exact (proj1 gITH1_good). Qed.
Lemma gIH_good : good gIH (true, true, true).
Proof.
  pose proof (proj2 gITH1_good) as G. unfold AssocModel.gIH. destruct (snd gITH1) as [x|]; [exact G|]. apply (good_conj aIH gIT (false, true, true)); [exact gIT_good|reflexivity].
Qed.
Notation slot := (AssocProofs.slot f rule meth).
Lemma slot_good b : good (slot b) b.
Proof.
  destruct b as [[[] []] []]; [exact gIH_good|exact gH_good|exact gIC_good|exact gC_good|exact gIT_good|exact gT_good|exact gI_good|apply good_Self, same_refl].
Qed.

Lemma follow_good path : forall b, exists b', follow (link t) (slot b) path = Some (slot b') /\ same (fold_left bits_attr path b) b'.
Proof.
  induction path as [|a path IH]; intros b; cbn [follow fold_left]; [exists b; split; [reflexivity|apply same_refl]|].
  unfold get. destruct (link_total f rule meth b) as (p & Ep). fold t in Ep. rewrite Ep. destruct (link_right Ep) as (b1 & H).
  assert (E : slot b = slot b1 /\ (match a with AC => pC p | AT => pT p | AH => pH p | AI => pI p end) = slot (bits_attr b1 a)) by (destruct H, a; auto).
  destruct E as (E1 & E2). rewrite E2. destruct (IH (bits_attr b1 a)) as (b' & E' & S'). exists b'. split; [exact E'|].
  apply same_trans with (fold_left bits_attr path (bits_attr b1 a)); [|exact S'].
  assert (S : same (bits_attr b a) (bits_attr b1 a)).
  { apply same_attr. apply same_trans with (tag (slot b)); [exact (same_sym _ _ (proj1 (slot_good b)))|]. rewrite E1. exact (proj1 (slot_good b1)). }
  clear - S conjK. revert S. generalize (bits_attr b a) (bits_attr b1 a). induction path as [|x path IH]; intros c d S; [exact S|]. cbn [fold_left]. apply IH, same_attr, S.
Qed.

Lemma chain_right path w : chain conj t v rules methods path = Some w -> means v (AssocSpec.bits path) w.
Proof.
  unfold chain. destruct (follow_good path (false, false, false)) as (b & E & S). change (AssocProofs.slot f rule meth (false, false, false)) with Self in E. rewrite E.
  intros H. apply same_means with b; [apply same_sym; exact S|]. exact (proj2 (slot_good b) w H).
Qed.
End Table.

(** ** Sums and products of lists *)
Lemma vfold_cons op (a : value) l : l <> [] -> vfold op (a :: l) = op a (vfold op l).
Proof. destruct l; [congruence|reflexivity]. Qed.
Lemma vfold_map op (g : value -> value) : (g None = None) -> (forall a b, g (op a b) = op (g a) (g b)) -> forall l, vfold op (map g l) = g (vfold op l).
Proof.
  intros Hn H l. induction l as [|a l IH]; [symmetry; exact Hn|]. destruct l as [|b l]; [reflexivity|]. rewrite (vfold_cons op a (b :: l)) by discriminate.
  cbn [map] in *. rewrite (vfold_cons op (g a)) by discriminate. rewrite IH, H. reflexivity.
Qed.
Lemma vfold_snoc (a : value) l : l <> [] -> vfold vmul (l ++ [a]) = vmul (vfold vmul l) a.
Proof.
  induction l as [|b l IH]; [congruence|]. intros _. destruct l as [|c l]; [reflexivity|]. cbn [app] in *. rewrite (vfold_cons vmul b (c :: l ++ [a])), (vfold_cons vmul b (c :: l)) by discriminate.
  rewrite IH by discriminate. apply vmulA.
Qed.
Lemma vfold_tr (l : list value) : vfold vmul (rev (map vtr l)) = vtr (vfold vmul l).
Proof.
  induction l as [|a l IH]; [reflexivity|]. destruct l as [|b l]; [reflexivity|]. rewrite (vfold_cons vmul a (b :: l)) by discriminate. rewrite vtr_mul, <- IH.
  change (map vtr (a :: b :: l)) with (vtr a :: map vtr (b :: l)). cbn [rev]. apply vfold_snoc. cbn [map rev]. destruct (rev (map vtr l)); discriminate.
Qed.
Lemma vfold_inverse (l l' : list value) : Forall2 inverse l l' -> vfold vmul l <> None -> inverse (vfold vmul l) (vfold vmul (rev l')).
Proof.
  induction 1 as [|a b l l' H F IH]; [intros N; contradiction N; reflexivity|]. destruct F as [|c d l l' H' F]; [intros _; exact H|]. rewrite (vfold_cons vmul a) by discriminate. intros N.
  change (rev (b :: d :: l')) with (rev (d :: l') ++ [b]). rewrite vfold_snoc by (cbn [rev]; destruct (rev l'); discriminate).
  apply inverse_mul; [exact H| |exact N]. apply IH. intros E. rewrite E in N. dv a; apply N; reflexivity.
Qed.
Lemma conj_none : vconj None = None.
Proof. reflexivity. Qed.
Lemma tr_none : vtr (@None {m : nat & {n : nat & mx R m n}}) = None.
Proof. reflexivity. Qed.

Lemma Forall2_means c t i (vs ws : list value) : Forall2 (fun v w => means v (c, t, i) w) vs ws ->
  exists us, Forall2 (fun v u => if i then inverse v u else u = v) vs us /\ ws = map (act c t) us.
Proof.
  induction 1 as [|v w vs ws (u & Hu & E) F (us & Hus & ->)]; [exists []; split; [constructor|reflexivity]|]. exists (u :: us). split; [constructor; assumption|]. cbn [map]. f_equal. exact E.
Qed.
Lemma Forall2_eq (vs us : list value) : Forall2 (fun v u => u = v) vs us -> us = vs.
Proof. induction 1; congruence. Qed.
Lemma act_map c t (l : list value) : map (act c t) l = (if c then map vconj else fun l => l) ((if t then map vtr else fun l => l) l).
Proof. destruct c, t; cbn; rewrite ?map_map; try reflexivity; try apply map_id. Qed.

Lemma product_act c t (l : list value) : vfold vmul (map (act c t) (if t then rev l else l)) = act c t (vfold vmul l).
Proof.
  rewrite act_map. destruct c, t; cbn [act]; rewrite ?(vfold_map vmul vconj conj_none vconj_mul), ?map_rev, ?vfold_tr; reflexivity.
Qed.
Lemma product_means c t i (vs ws : list value) : Forall2 (fun v w => means v (c, t, i) w) vs ws -> vfold vmul vs <> None ->
  means (vfold vmul vs) (c, t, i) (vfold vmul (if xorb t i then rev ws else ws)).
Proof.
  intros F N. destruct (Forall2_means _ _ _ _ _ F) as (us & H & ->). destruct i.
  - apply vfold_inverse in H; [|exact N]. exists (vfold vmul (rev us)). split; [exact H|]. change (vfold vmul (if xorb t true then rev (map (act c t) us) else map (act c t) us) = act c t (vfold vmul (rev us))).
    rewrite <- product_act. destruct t; cbn [xorb]; rewrite ?rev_involutive, ?map_rev; reflexivity.
  - apply Forall2_eq in H. subst us. exists (vfold vmul vs). split; [reflexivity|]. rewrite xorb_false_r. change (vfold vmul (if t then rev (map (act c t) vs) else map (act c t) vs) = act c t (vfold vmul vs)).
    rewrite <- product_act. destruct t; rewrite ?map_rev; reflexivity.
Qed.
Lemma sum_act c t (l : list value) : vfold vadd (map (act c t) l) = act c t (vfold vadd l).
Proof.
  rewrite act_map. destruct c, t; cbn [act]; rewrite ?(vfold_map vadd vconj conj_none vconj_add), ?(vfold_map vadd vtr tr_none vtr_add); reflexivity.
Qed.
Lemma sum_means c t (vs ws : list value) : Forall2 (fun v w => means v (c, t, false) w) vs ws -> means (vfold vadd vs) (c, t, false) (vfold vadd ws).
Proof.
  intros F. destruct (Forall2_means _ _ _ _ _ F) as (us & H & ->). apply Forall2_eq in H. subst us. exists (vfold vadd vs). split; [reflexivity|]. exact (sum_act c t vs).
Qed.

(** ** Composites *)
Lemma all_some_Forall2 {A} (l : list (option A)) l' : all_some l = Some l' -> Forall2 (fun o a => o = Some a) l l'.
Proof.
  revert l'. induction l as [|[a|] l IH]; cbn [all_some]; intros l' E; [injection E as <-; constructor| |discriminate].
  destruct (all_some l) as [l1|]; [|discriminate]. injection E as <-. constructor; [reflexivity|]. apply IH. reflexivity.
Qed.
Lemma operands_means (operands : list (operator R)) path ws : Forall (right conj) operands -> all_some (map (fun o => o_chain o path) operands) = Some ws ->
  Forall2 (fun v w => means v (AssocSpec.bits path) w) (map o_value operands) ws.
Proof.
  intros H E. apply all_some_Forall2 in E. revert ws E. induction H as [|o operands (_ & _ & _ & Ho) H IH]; cbn [map]; intros ws E; inversion E; subst; constructor; auto.
Qed.
Lemma all_some_rev {A} (l : list (option A)) l' : all_some (rev l) = Some l' -> all_some l = Some (rev l').
Proof.
  intros E. apply all_some_Forall2 in E. assert (F : Forall2 (fun o a => o = Some a) l (rev l')).
  { rewrite <- (rev_involutive l). clear - E. revert E. generalize (rev l). intros k E. induction E as [|o a k l' Ho E IH]; [constructor|]. cbn [rev]. apply Forall2_app; [exact IH|]. constructor; [exact Ho|constructor]. }
  clear E. revert F. generalize (rev l'). clear l'. intros l' F. induction F as [|o a l l' -> F IH]; [reflexivity|]. cbn [all_some]. rewrite IH. reflexivity.
Qed.

Lemma recipe_product (operands : list (operator R)) path reversed c t i w : Forall (right conj) operands -> AssocSpec.bits path = (c, t, i) -> reversed = xorb t i ->
  combined Product (map o_value operands) <> None -> by_recipe Product operands (Some (path, reversed)) = Some w -> means (combined Product (map o_value operands)) (c, t, i) w.
Proof.
  intros H B -> N E. cbn [by_recipe] in E. destruct (all_some _) as [ws|] eqn:S in E; [|discriminate]. injection E as <-.
  assert (F : all_some (map (fun o => o_chain o path) operands) = Some (if xorb t i then rev ws else ws)).
  { destruct (xorb t i); [|exact S]. apply all_some_rev. rewrite <- map_rev. exact S. }
  apply (operands_means _ _ _ H) in F. rewrite B in F. apply product_means in F; [|exact N]. revert F. unfold combined. destruct (xorb t i); rewrite ?rev_involutive; auto.
Qed.
Lemma recipe_sum (operands : list (operator R)) path c t w : Forall (right conj) operands -> AssocSpec.bits path = (c, t, false) ->
  by_recipe Sum operands (Some (path, false)) = Some w -> means (combined Sum (map o_value operands)) (c, t, false) w.
Proof.
  intros H B E. cbn [by_recipe] in E. destruct (all_some _) as [ws|] eqn:S in E; [|discriminate]. injection E as <-.
  apply (operands_means _ _ _ H) in S. rewrite B in S. apply sum_means in S. exact S.
Qed.

(** *** The flags *)
Lemma flags_product k complex l f : k <> Sum -> composite_flags k complex l = Ok f ->
  f Real = (all_flag Real l || negb complex)%bool /\ f Symmetric = false /\ f Hermitian = false /\ f Involutary = false /\ f Orthogonal = false /\ f Unitary = false.
Proof.
  intros K. unfold composite_flags. destruct k; [congruence| |]; (destruct l as [|f0 l]; [discriminate|]; unfold merge_flags_composition; cbn [rbind];
  generalize (all_flag Real (f0 :: l)) (all_flag Linear (f0 :: l)) (all_flag Square (f0 :: l)) (all_flag Separable (f0 :: l)) (last (f0 :: l) f0); intros b b1 b2 b3 fl E; apply init_flags_none in E; subst f; destruct b, complex; repeat split; vm_compute; reflexivity).
Qed.
Lemma flags_sum complex l f : composite_flags Sum complex l = Ok f ->
  f Real = (all_flag Real l || negb complex)%bool /\ f Symmetric = all_flag Symmetric l /\ f Hermitian = all_flag Symmetric l /\ f Involutary = false /\ f Orthogonal = false /\ f Unitary = false.
Proof.
  unfold composite_flags, merge_flags_addition, merge_flags_commutative. cbn [rbind app].
  generalize (all_flag Real l) (all_flag Linear l) (all_flag Square l) (all_flag Separable l) (any_flag AlignedInput l) (any_flag AlignedOutput l) (any_flag ContiguousInput l) (any_flag ContiguousOutput l) (any_flag Square l) (all_flag Symmetric l).
  intros b b1 b2 b3 b4 b5 b6 b7 b8 b9 E. apply init_flags_none in E. subst f. destruct b, complex, b9; repeat split; vm_compute; reflexivity.
Qed.
Lemma all_flag_Forall k l : all_flag k l = true -> Forall (fun f : flags => f k = true) l.
Proof. intros H. apply Forall_forall. unfold all_flag in H. rewrite forallb_forall in H. exact H. Qed.

Lemma operands_fixed (g : value -> value) k (operands : list (operator R)) : (forall o, right conj o -> o_flags o k = true -> g (o_value o) = o_value o) ->
  Forall (right conj) operands -> Forall (fun f => f k = true) (map o_flags operands) -> map g (map o_value operands) = map o_value operands.
Proof.
  intros Hg H F. apply Forall_map in F. induction H as [|o operands Ho H IH]; [reflexivity|]. inversion F as [|? ? F1 F2]; subst. cbn [map]. f_equal; [apply Hg; assumption|exact (IH F2)].
Qed.
Lemma composite_real k (operands : list (operator R)) : Forall (right conj) operands -> Forall (fun f => f Real = true) (map o_flags operands) ->
  vconj (combined k (map o_value operands)) = combined k (map o_value operands).
Proof.
  intros H F. assert (E : map vconj (map o_value operands) = map o_value operands).
  { apply (operands_fixed vconj Real); [|exact H|exact F]. intros o (_ & Ho & _). exact (proj1 Ho). }
  unfold combined. rewrite <- E at 2. destruct k; rewrite vfold_map; auto using vconj_add, vconj_mul.
Qed.
Lemma real_from_dtype k complex f (operands : list (operator R)) : f Real = (all_flag Real (map o_flags operands) || negb complex)%bool -> dtypes_agree k complex (map o_flags operands) ->
  f Real = true -> Forall (fun f => f Real = true) (map o_flags operands).
Proof.
  intros E (D & _). rewrite E. intros T. apply orb_true_iff in T. destruct T as [T|T]; [exact (all_flag_Forall _ _ T)|]. apply D. destruct complex; [discriminate T|reflexivity].
Qed.

Lemma composite_honest k complex f (operands : list (operator R)) : Forall (right conj) operands -> composite_flags k complex (map o_flags operands) = Ok f -> dtypes_agree k complex (map o_flags operands) ->
  (k = Sum -> Forall (fun f => f Symmetric = true) (map o_flags operands) -> Forall (fun f => f Hermitian = true) (map o_flags operands)) ->
  honest_flags conj (combined k (map o_value operands)) f.
Proof.
  intros H E D S. assert (K : k = Sum \/ k <> Sum) by (destruct k; auto; right; discriminate). destruct K as [->|K].
  - destruct (flags_sum _ _ _ E) as (E1 & E2 & E3 & E4 & E5 & E6). unfold honest_flags. rewrite E2, E3, E4, E5, E6.
    split; [|split; [|split; [|repeat split; discriminate]]].
    + intros T. apply composite_real; [exact H|]. exact (real_from_dtype _ _ _ _ E1 D T).
    + intros T. apply all_flag_Forall in T. unfold combined. rewrite <- (vfold_map vadd vtr tr_none vtr_add). f_equal.
      apply (operands_fixed vtr Symmetric); [|exact H|exact T]. intros o (_ & Ho & _). exact (proj1 (proj2 Ho)).
    + intros T. apply all_flag_Forall in T. apply (S eq_refl) in T. unfold combined.
      pose proof (sum_act true true (map o_value operands)) as Q. cbn [act] in Q. symmetry in Q. etransitivity; [exact Q|]. f_equal.
      apply (operands_fixed (act true true) Hermitian); [|exact H|exact T]. intros o (_ & Ho & _). exact (proj1 (proj2 (proj2 Ho))).
  - destruct (flags_product _ _ _ _ K E) as (E1 & E2 & E3 & E4 & E5 & E6). unfold honest_flags. rewrite E2, E3, E4, E5, E6.
    split; [|repeat split; discriminate]. intros T. apply composite_real; [exact H|]. exact (real_from_dtype _ _ _ _ E1 D T).
Qed.

Ltac prod := match goal with H : Forall _ _, N : _ <> None, E : by_recipe _ _ _ = Some _ |- _ => eapply recipe_product; [exact H| | |exact N|exact E]; reflexivity end.

Lemma compose_right k complex f (operands : list (operator R)) : Forall (right conj) operands -> composite_flags k complex (map o_flags operands) = Ok f -> dtypes_agree k complex (map o_flags operands) ->
  (k = Sum -> Forall (fun f => f Symmetric = true) (map o_flags operands) -> Forall (fun f => f Hermitian = true) (map o_flags operands)) ->
  combined k (map o_value operands) <> None -> right conj (compose conj k f operands).
Proof.
  intros H E D S N. pose proof (composite_honest k complex f operands H E D S) as Hf. split; [exact N|]. split; [exact Hf|]. split; [reflexivity|].
  cbn [compose o_chain o_value]. intros path w. apply chain_right; [exact Hf|]. split.
  - intros r w' Hr E'. destruct k as [| |switch]; cbn [composite_rule] in *.
    + destruct r; cbn [sum_rule] in *; try discriminate; (eapply recipe_sum; [exact H| |exact E']; reflexivity).
    + destruct r; cbn [product_rule] in *; prod.
    + change (combined (Group switch) (map o_value operands)) with (combined Product (map o_value operands)) in *.
      assert (X : forall path reversed, by_recipe (Group switch) operands (Some (path, reversed)) = by_recipe Product operands (Some (path, reversed))) by reflexivity.
      destruct switch.
      * pose proof (composite_real Product operands H (proj2 D eq_refl)) as Re.
        assert (M : means (combined Product (map o_value operands)) (true, false, false) (combined Product (map o_value operands))) by (eexists; split; [reflexivity|symmetry; exact Re]).
        destruct r; unfold group_rule in E'; rewrite X in E'.
        -- prod.
        -- apply (means_shift _ _ M (true, true, false) w'). prod.
        -- apply (means_shift _ _ M (false, true, false) w'). prod.
        -- prod.
        -- prod.
        -- apply (means_shift _ _ M (true, true, true) w'). prod.
        -- apply (means_shift _ _ M (false, true, true) w'). prod.
      * destruct r; unfold group_rule in E'; rewrite X in E'; prod.
  - intros r w' [Hr| ->]; [discriminate|]. intros [= <-]. eexists. split; reflexivity.
Qed.

Lemma plain_right f (v : value) rule meth rules methods : v <> None -> honest_flags conj v f -> right_plain conj v rule meth rules methods ->
  right conj (plain conj f v rule meth rules methods).
Proof.
  intros N Hf Hp. split; [exact N|]. split; [exact Hf|]. split; [reflexivity|]. cbn [plain o_chain o_value]. intros path w. exact (chain_right v f rule meth rules methods Hf Hp path w).
Qed.

Lemma expression_right (P : operator R -> Prop) : (forall o, P o -> right conj o) -> forall o, expression conj P o -> right conj o.
Proof.
  intros HP. fix IH 2. intros o [o' Ho|k complex f operands Hops E D S N]; [exact (HP o' Ho)|]. apply compose_right with complex; try assumption.
  revert Hops. clear - IH. revert operands. fix IHl 2. intros l [|x l' Hx Hl]; constructor; [exact (IH _ Hx)|exact (IHl _ Hl)].
Qed.
End Values.

(** ** Availability *)
Fixpoint sourced (ok : assoc -> bool) (o : node) : bool :=
  match o with Self => true | New _ s => source_sourced ok s end
with source_sourced (ok : assoc -> bool) (s : source) : bool :=
  match s with
  | SRule r => ok r
  | SMethod m => match m with aC => true | _ => false end
  | SConjOf o => sourced ok o
  | SNone => false
  end.
Fixpoint sourced_computes {R : cring} (conj : conjugation R) (v : value R) rules methods ok
  (Hr : forall r, ok r = true -> rules r <> None) (Hm : methods aC <> None) (o : node) {struct o} : sourced ok o = true -> computes conj v rules methods o <> None
with source_sourced_computes {R : cring} (conj : conjugation R) (v : value R) rules methods ok
  (Hr : forall r, ok r = true -> rules r <> None) (Hm : methods aC <> None) (s : source) {struct s} : source_sourced ok s = true -> source_computes conj v rules methods s <> None.
Proof.
  - destruct o as [|g s]; [discriminate|]. exact (source_sourced_computes R conj v rules methods ok Hr Hm s).
  - destruct s as [r|m|o|].
    + exact (Hr r).
    + destruct m; try discriminate. intros _. exact Hm.
    + intros H. pose proof (sourced_computes R conj v rules methods ok Hr Hm o H) as N.
      change (match computes conj v rules methods o with Some w => Some (vconj conj w) | None => None end <> None). destruct (computes conj v rules methods o); [discriminate|congruence].
    + discriminate.
Qed.

Definition flags3 (r s h : bool) : flags := fun k => match k with Real => r | Symmetric => s | Hermitian => h | _ => false end.
Lemma composite_table_flags k f : f Involutary = false -> f Orthogonal = false -> f Unitary = false ->
  composite_table k f = composite_table k (flags3 (f Real) (f Symmetric) (f Hermitian)).
Proof.
  intros E1 E2 E3. unfold composite_table, generate, gIH, gIT, gITH1, gIH0, gIT0, gIC, gI, gH, gT, gTH1, gH0, gT0, gC. cbn [flags3]. rewrite E1, E2, E3. reflexivity.
Qed.
Definition uninverted (t : table) : list node := [Self; nC t; nT t; nH t].
Definition closed (t : table) : bool :=
  forallb (fun o => forallb (fun a => match get (link t) o a with Some o' => existsb (node_eqb o') (uninverted t) | None => false end) [AC; AT; AH]) (uninverted t).
Lemma closed_ok k r s h : closed (composite_table k (flags3 r s h)) = true.
Proof. destruct k as [| |[]], r, s, h; vm_compute; reflexivity. Qed.
Lemma sourced_ok k r s h : forallb (sourced (fun a => match a with aC | aT | aH => true | _ => false end)) (uninverted (composite_table k (flags3 r s h))) = true.
Proof. destruct k as [| |[]], r, s, h; vm_compute; reflexivity. Qed.
Lemma all_sourced_ok k r s h : k <> Sum -> let t := composite_table k (flags3 r s h) in forallb (sourced (fun _ => true)) (uninverted t ++ [nI t; nIC t; nIT t; nIH t]) = true.
Proof. intros K. destruct k as [| |[]], r, s, h; try congruence; vm_compute; reflexivity. Qed.
Lemma closed_follow t path : closed t = true -> ~ In AI path -> forall o, In o (uninverted t) -> exists o', follow (link t) o path = Some o' /\ In o' (uninverted t).
Proof.
  intros C. induction path as [|a path IH]; intros N o Ho; cbn [follow]; [exists o; auto|].
  unfold closed in C. rewrite forallb_forall in C. pose proof (C o Ho) as Ca. rewrite forallb_forall in Ca.
  assert (Ha : In a [AC; AT; AH]) by (destruct a; cbn [In]; auto; contradiction N; left; reflexivity). specialize (Ca a Ha). destruct (get (link t) o a) as [o1|]; [|discriminate].
  apply existsb_exists in Ca. destruct Ca as (o2 & H2 & E). apply node_eqbP in E. subst o2. apply IH; [intros H; apply N; right; exact H|exact H2].
Qed.

Lemma all_some_available {A B} (g : A -> option B) (l : list A) : Forall (fun a => g a <> None) l -> all_some (map g l) <> None.
Proof. induction 1 as [|a l H F IH]; cbn [map all_some]; [discriminate|]. destruct (g a); [|congruence]. destruct (all_some (map g l)); [discriminate|congruence]. Qed.
Lemma by_recipe_available {R : cring} k (operands : list (operator R)) path reversed : Forall (fun o => o_chain o path <> None) operands -> by_recipe k operands (Some (path, reversed)) <> None.
Proof.
  intros F. cbn [by_recipe]. assert (N : all_some (map (fun o => o_chain o path) (if reversed then rev operands else operands)) <> None).
  { apply all_some_available. destruct reversed; [apply Forall_rev|]; exact F. }
  destruct (all_some _); [discriminate|congruence].
Qed.

Lemma composite_flags_false k complex l f : composite_flags k complex l = Ok f -> f Involutary = false /\ f Orthogonal = false /\ f Unitary = false.
Proof.
  intros E. assert (K : k = Sum \/ k <> Sum) by (destruct k; auto; right; discriminate). destruct K as [->|K]; [apply flags_sum in E|apply flags_product in E; [|exact K]]; tauto.
Qed.

Lemma compose_without_inverses {R : cring} (conj : conjugation R) k complex f (operands : list (operator R)) : composite_flags k complex (map o_flags operands) = Ok f ->
  Forall without_inverses operands -> without_inverses (compose conj k f operands).
Proof.
  intros E F path N. destruct (composite_flags_false _ _ _ _ E) as (E1 & E2 & E3). cbn [compose o_chain]. unfold chain. rewrite (composite_table_flags k f E1 E2 E3).
  destruct (closed_follow _ path (closed_ok k (f Real) (f Symmetric) (f Hermitian)) N Self (or_introl eq_refl)) as (o & Eo & Ho). rewrite Eo.
  pose proof (sourced_ok k (f Real) (f Symmetric) (f Hermitian)) as S. rewrite forallb_forall in S. specialize (S o Ho). revert S. apply sourced_computes; [|discriminate].
  assert (G : forall a, ~ In AI [a] -> Forall (fun o => o_chain o [a] <> None) operands) by (intros a Ha; revert F; apply Forall_impl; intros o' H'; apply H'; exact Ha).
  intros r Hr. destruct k as [| |[]], r; try discriminate Hr; cbn [composite_rule]; apply by_recipe_available, G; cbn [In]; intuition discriminate.
Qed.
Lemma compose_with_inverses {R : cring} (conj : conjugation R) k complex f (operands : list (operator R)) : k <> Sum -> composite_flags k complex (map o_flags operands) = Ok f ->
  Forall with_inverses operands -> with_inverses (compose conj k f operands).
Proof.
  intros K E F path. destruct (composite_flags_false _ _ _ _ E) as (E1 & E2 & E3). cbn [compose o_chain]. unfold chain. rewrite (composite_table_flags k f E1 E2 E3).
  assert (L : forall path b, exists b', follow (link (composite_table k (flags3 (f Real) (f Symmetric) (f Hermitian)))) (AssocProofs.slot (flags3 (f Real) (f Symmetric) (f Hermitian))
      (fun r => match composite_rule k r with Some _ => true | None => false end) (fun _ => false) b) path =
    Some (AssocProofs.slot (flags3 (f Real) (f Symmetric) (f Hermitian)) (fun r => match composite_rule k r with Some _ => true | None => false end) (fun _ => false) b')).
  { clear. intros path. induction path as [|a path IH]; intros b; cbn [follow]; [exists b; reflexivity|]. unfold get.
    match goal with |- context [AssocProofs.slot ?f ?r ?m b] => destruct (link_total f r m b) as (p & Ep) end. unfold composite_table. rewrite Ep. destruct (link_right Ep) as (b1 & [? ? ? ? ?]).
    assert (E : exists b2, (match a with AC => pC p | AT => pT p | AH => pH p | AI => pI p end) = AssocProofs.slot (flags3 (f Real) (f Symmetric) (f Hermitian)) (fun r => match composite_rule k r with Some _ => true | None => false end) (fun _ => false) b2) by (destruct a; eauto).
    destruct E as (b2 & E). rewrite E. exact (IH b2). }
  destruct (L path (false, false, false)) as (b & Eb). match type of Eb with follow _ ?s _ = _ => change s with Self in Eb end. rewrite Eb.
  pose proof (all_sourced_ok k (f Real) (f Symmetric) (f Hermitian) K) as S. cbv zeta in S. rewrite forallb_forall in S.
  match goal with |- computes _ _ _ _ ?o <> None => assert (Ho : sourced (fun _ => true) o = true) end.
  { apply S. unfold uninverted, AssocProofs.slot, composite_table. cbn [app In]. destruct b as [[[] []] []]; tauto. }
  revert Ho. apply sourced_computes; [|discriminate].
  assert (G : forall path, Forall (fun o => o_chain o path <> None) operands) by (intros p; revert F; apply Forall_impl; intros o' H'; apply H').
  intros r _. destruct k as [| |[]]; [congruence| | |]; destruct r; cbn [composite_rule]; apply by_recipe_available, G.
Qed.
Lemma expression_without_inverses {R : cring} (conj : conjugation R) (P : operator R -> Prop) : (forall o, P o -> without_inverses o) -> forall o, expression conj P o -> without_inverses o.
Proof.
  intros HP. fix IH 2. intros o [o' Ho|k complex f operands Hops E D S N]; [exact (HP o' Ho)|]. apply compose_without_inverses with complex; try assumption.
  revert Hops. clear - IH. revert operands. fix IHl 2. intros l [|x l' Hx Hl]; constructor; [exact (IH _ Hx)|exact (IHl _ Hl)].
Qed.
(** The inverse of a sum *)
Lemma sum_no_inverse {R : cring} (conj : conjugation R) complex f (operands : list (operator R)) : composite_flags Sum complex (map o_flags operands) = Ok f ->
  o_chain (compose conj Sum f operands) [AI] = None.
Proof.
  intros E. destruct (composite_flags_false _ _ _ _ E) as (E1 & E2 & E3). cbn [compose o_chain]. unfold chain. rewrite (composite_table_flags Sum f E1 E2 E3).
  generalize (f Real) (f Symmetric) (f Hermitian). intros r s h. destruct r, s, h; vm_compute; reflexivity.
Qed.

(** ** The adjoint of a sum of complex symmetric operators *)
Definition sym_op : operator Gring :=
  let v : value Gring := matrix (build 1 1 (fun _ _ => GI 0 1 : Gring)) in
  plain Gconj symf v (fun _ => false) (fun _ => false) (fun _ => None) (fun r => match r with aC => Some (vconj Gconj v) | _ => None end).
Lemma sym_op_right : right Gconj sym_op.
Proof.
  apply plain_right; [exact gconjK|discriminate| |].
  - split; [discriminate|]. split; [|repeat split; discriminate]. intros _. cbn [vtr matrix]. unfold matrix. do 3 f_equal. apply mx_list_eq. reflexivity.
  - split; [discriminate|]. intros r w [H| ->]; [discriminate|]. intros [= <-]. eexists. split; reflexivity.
Qed.
Lemma sum_adjoint_wrong : exists (operands : list (operator Gring)) (f : flags) (w : value Gring),
  Forall (right Gconj) operands /\ composite_flags Sum true (map o_flags operands) = Ok f /\ dtypes_agree Sum true (map o_flags operands) /\
  combined Sum (map o_value operands) <> None /\ o_chain (compose Gconj Sum f operands) [AH] = Some w /\
  ~ means Gconj (combined Sum (map o_value operands)) (AssocSpec.bits [AH]) w.
Proof.
  exists [sym_op; sym_op]. eexists. eexists. split; [constructor; [exact sym_op_right|]; constructor; [exact sym_op_right|constructor]|]. split; [reflexivity|]. split; [split; discriminate|]. split; [discriminate|]. split; [reflexivity|].
  intros (u & Hu & E). cbn beta iota in Hu. subst u. apply (f_equal (fun v : value Gring => match v with Some (existT _ m (existT _ n A)) => mx_list A | None => [] end)) in E.
  vm_compute in E. discriminate E.
Qed.

(** ** Examples *)
(** A complex matrix with the method transpose *)
Definition given (m n : nat) (A : mx Gring m n) : operator Gring :=
  let v := matrix A in
  plain Gconj (set_flag Linear default_flags) v (fun _ => false) (fun r => match r with aT => true | _ => false end) (fun _ => None)
    (fun r => match r with aC => Some (vconj Gconj v) | aT => Some (vtr v) | _ => None end).
Definition row : mx Gring 1 2 := build 1 2 (fun i j => if Nat.eqb j 0 then GI 1 0 : Gring else GI 0 1).
Definition col : mx Gring 2 1 := build 2 1 (fun i j => if Nat.eqb i 0 then GI 2 1 : Gring else GI 3 0).
Definition cell : mx Gring 1 1 := build 1 1 (fun i j => GI 5 7 : Gring).
Definition get_flags (k : composite) (complex : bool) (l : list flags) : flags := match composite_flags k complex l with Ok f => f | Raise _ => default_flags end.
Definition composed (k : composite) (l : list (operator Gring)) : operator Gring := compose Gconj k (get_flags k true (map o_flags l)) l.
Definition sample : operator Gring := composed Sum [composed Product [given 1 2 row; given 2 1 col]; given 1 1 cell].
Definition elements (o : option (value Gring)) : option (nat * nat * list gint) :=
  match o with Some (Some (existT _ m (existT _ n A))) => Some (m, n, mx_list A) | _ => None end.

Lemma given_right m n (A : mx Gring m n) : right Gconj (given m n A) /\ without_inverses (given m n A).
Proof.
  split.
  - apply plain_right; [exact gconjK|discriminate|repeat split; discriminate|]. split; [discriminate|].
    intros r w [H| ->]; [destruct r; try discriminate H|]; intros [= <-]; (eexists; split; reflexivity).
  - intros path N. cbn [given plain o_chain]. unfold chain.
    destruct (closed_follow (generate (set_flag Linear default_flags) (fun _ => false) (fun r => match r with aT => true | _ => false end)) path (eq_refl true) N Self (or_introl eq_refl)) as (o & -> & Ho).
    vm_compute in Ho. destruct Ho as [<-|[<-|[<-|[<-|[]]]]]; discriminate.
Qed.
(** The inverse of a product of two numbers: 1 / i / (-i) *)
Definition unit_op (a b : gint) : operator Gring :=
  let A : mx Gring 1 1 := build 1 1 (fun _ _ => a : Gring) in let B : mx Gring 1 1 := build 1 1 (fun _ _ => b : Gring) in
  plain Gconj (set_flag Linear default_flags) (matrix A) (fun _ => false) (fun r => match r with aT | aI | aIT => true | _ => false end) (fun _ => None)
    (fun r => match r with aC => Some (vconj Gconj (matrix A)) | aT => Some (vtr (matrix A)) | aI => Some (matrix B) | aIT => Some (vtr (matrix B)) | _ => None end).
Lemma unit_inverses : Forall with_inverses [unit_op (GI 0 1) (GI 0 (-1)); unit_op (GI (-1) 0) (GI (-1) 0)].
Proof.
  assert (H : forall a b, with_inverses (unit_op a b)).
  { intros a b path. cbn [unit_op plain o_chain]. unfold chain.
    assert (K : forall path b, follow (link (generate (set_flag Linear default_flags) (fun _ => false) (fun r => match r with aT | aI | aIT => true | _ => false end)))
      (tslot (generate (set_flag Linear default_flags) (fun _ => false) (fun r => match r with aT | aI | aIT => true | _ => false end)) b) path =
      Some (tslot (generate (set_flag Linear default_flags) (fun _ => false) (fun r => match r with aT | aI | aIT => true | _ => false end)) (fold_left bits_attr path b))).
    { intros p. induction p as [|x p IH]; intros c; cbn [follow fold_left]; [reflexivity|]. rewrite table_okP by reflexivity. apply IH. }
    pose proof (K path (false, false, false)) as E. change (tslot _ (false, false, false)) with Self in E. rewrite E.
    destruct (fold_left bits_attr path (false, false, false)) as [[[] []] []]; discriminate. }
  constructor; [apply H|]. constructor; [apply H|constructor].
Qed.
