(** Ordered fields, in which the arithmetic of the iterative algorithms is done: rounding is left out.  Nothing here models a
    particular file. *)
From Coq Require Import QArith Qcanon.
From Verif Require Import Base Algebra.
Close Scope Qc_scope. Close Scope Q_scope.

Record ofield := {
  ofc :> cring;
  inv : ofc -> ofc;
  eqb : ofc -> ofc -> bool;
  ltb : ofc -> ofc -> bool;
  inv_ok : forall a, a <> r0 -> rmul a (inv a) = r1;
  eqb_ok : forall a b, eqb a b = true <-> a = b;
  lt_irrefl : forall a, ltb a a = false;
  lt_trans : forall a b c, ltb a b = true -> ltb b c = true -> ltb a c = true;
  lt_total : forall a b, a = b \/ ltb a b = true \/ ltb b a = true;
  lt_add : forall a b c, ltb a b = true -> ltb (radd a c) (radd b c) = true;
  lt_mul : forall a b, ltb r0 a = true -> ltb r0 b = true -> ltb r0 (rmul a b) = true
}.
Arguments inv {_}. Arguments eqb {_}. Arguments ltb {_}.

Section Facts.
Context {K : ofield}.
Add Ring KringO : (rth K).
Local Open Scope cr_scope.
Implicit Types a b c x y z : K.
Definition lt a b : Prop := ltb a b = true.
Definition le a b : Prop := ltb b a = false.
Definition div a b : K := a * inv b.

Lemma eqb_spec a b : if eqb a b then a = b else a <> b.
Proof. destruct (eqb a b) eqn:E; [apply eqb_ok, E|]. intros F. apply eqb_ok in F. congruence. Qed.
Lemma eq_dec a b : {a = b} + {a <> b}.
Proof. pose proof (eqb_spec a b). destruct (eqb a b); auto. Qed.
Lemma ltb_spec a b : if ltb a b then lt a b else le b a.
Proof. unfold lt, le. destruct (ltb a b); reflexivity. Qed.
Lemma lt_neq a b : lt a b -> a <> b.
Proof. intros L ->. unfold lt in L. rewrite lt_irrefl in L. discriminate. Qed.
Lemma lt_asym a b : lt a b -> le a b.
Proof. intros L. unfold le. destruct (ltb b a) eqn:E; [|reflexivity]. pose proof (lt_trans K a b a L E) as F. rewrite lt_irrefl in F. discriminate. Qed.
Lemma le_lt_eq a b : le a b <-> lt a b \/ a = b.
Proof.
  split.
  - intros L. destruct (lt_total K a b) as [E|[E|E]]; [right; exact E|left; exact E|]. unfold le in L. congruence.
  - intros [L|E]; [apply lt_asym, L|]. subst. unfold le. apply lt_irrefl.
Qed.
Lemma le_refl a : le a a. Proof. apply le_lt_eq. right. reflexivity. Qed.
Lemma lt_le_trans a b c : lt a b -> le b c -> lt a c.
Proof. intros L M. apply le_lt_eq in M. destruct M as [M|E]; [exact (lt_trans K a b c L M)|rewrite <- E; exact L]. Qed.
Lemma le_lt_trans a b c : le a b -> lt b c -> lt a c.
Proof. intros M L. apply le_lt_eq in M. destruct M as [M|E]; [exact (lt_trans K a b c M L)|rewrite E; exact L]. Qed.
Lemma le_trans a b c : le a b -> le b c -> le a c.
Proof. intros L M. apply le_lt_eq in L. destruct L as [L|E]; [apply lt_asym, (lt_le_trans a b c L M)|rewrite E; exact M]. Qed.
Lemma le_antisym a b : le a b -> le b a -> a = b.
Proof. intros L M. apply le_lt_eq in L. destruct L as [L|E]; [unfold lt, le in *; congruence|exact E]. Qed.
Lemma le_total a b : le a b \/ le b a.
Proof. destruct (lt_total K a b) as [->|[E|E]]; [left; apply le_refl|left; apply lt_asym, E|right; apply lt_asym, E]. Qed.
Lemma lt_sub a b : lt a b <-> lt 0 (b - a).
Proof.
  split; intros L.
  - pose proof (lt_add K a b (- a) L) as M. unfold lt. replace 0 with (a + - a) by ring. replace (b - a) with (b + - a) by ring. exact M.
  - pose proof (lt_add K 0 (b - a) a L) as M. unfold lt. replace (0 + a) with a in M by ring. replace (b - a + a) with b in M by ring. exact M.
Qed.
Lemma le_sub a b : le a b <-> le 0 (b - a).
Proof.
  rewrite !le_lt_eq, lt_sub. split; (intros [L|E]; [left; exact L|right]).
  - rewrite E. ring.
  - replace b with (b - a + a) by ring. rewrite <- E. ring.
Qed.
Lemma le_add_pos a b : le 0 a -> le 0 b -> le 0 (a + b).
Proof. intros A B. apply le_trans with a; [exact A|]. apply le_sub. replace (a + b - a) with b by ring. exact B. Qed.
Lemma lt_add_pos a b : lt 0 a -> le 0 b -> lt 0 (a + b).
Proof. intros A B. apply lt_le_trans with a; [exact A|]. apply le_sub. replace (a + b - a) with b by ring. exact B. Qed.
Lemma le_mul_pos a b : le 0 a -> le 0 b -> le 0 (a * b).
Proof.
  intros A B. apply le_lt_eq in A. apply le_lt_eq in B. destruct A as [A| <-]; [|rewrite rmul_0_l; apply le_refl].
  destruct B as [B| <-]; [|rewrite rmul_0_r; apply le_refl]. apply lt_asym, lt_mul; assumption.
Qed.
Lemma lt_opp a : lt a 0 -> lt 0 (- a).
Proof. intros L. apply lt_sub in L. replace (0 - a) with (- a) in L by ring. exact L. Qed.
Lemma square_pos a : a <> 0 -> lt 0 (a * a).
Proof.
  intros N. destruct (lt_total K a 0) as [E|[E|E]]; [contradiction| |apply lt_mul; exact E].
  replace (a * a) with ((- a) * (- a)) by ring. apply lt_mul; apply lt_opp, E.
Qed.
Lemma square_nonneg a : le 0 (a * a).
Proof. destruct (eq_dec a 0) as [->|N]; [rewrite rmul_0_l; apply le_refl|apply lt_asym, square_pos, N]. Qed.
Lemma sum_nonneg n (f : nat -> K) : (forall i, (i < n)%nat -> le 0 (f i)) -> le 0 (sum n f).
Proof. induction n as [|n IH]; intros H; cbn [sum]; [apply le_refl|]. apply le_add_pos; [apply IH; intros; apply H; lia|apply H; lia]. Qed.
Lemma sum_nonneg_zero n (f : nat -> K) : (forall i, (i < n)%nat -> le 0 (f i)) -> sum n f = 0 -> forall i, (i < n)%nat -> f i = 0.
Proof.
  induction n as [|n IH]; intros H E i Hi; [lia|]. cbn [sum] in E.
  assert (le 0 (sum n f)) as P by (apply sum_nonneg; intros; apply H; lia). assert (le 0 (f n)) as Q by (apply H; lia).
  assert (f n = 0) as F. { apply le_antisym; [|exact Q]. apply le_sub. replace (0 - f n) with (sum n f) by (rewrite <- E; ring). exact P. }
  destruct (Nat.eq_dec i n) as [->|]; [exact F|]. apply IH; [intros; apply H; lia| |lia]. rewrite F in E. rewrite <- E. ring.
Qed.
Lemma lt_0_1 : (1 : K) <> 0 -> lt 0 (1 : K).
Proof. intros N. replace (1 : K) with (1 * 1 : K) by ring. apply square_pos, N. Qed.

(** division *)
Lemma div_mul a b : b <> 0 -> div a b * b = a.
Proof. intros N. unfold div. replace (a * inv b * b) with (a * (b * inv b)) by ring. rewrite inv_ok by exact N. ring. Qed.
Lemma mul_zero a b : a * b = 0 -> a = 0 \/ b = 0.
Proof.
  intros E. destruct (eq_dec a 0) as [->|N]; [left; reflexivity|right].
  replace b with (a * inv a * b) by (rewrite inv_ok by exact N; ring). replace (a * inv a * b) with (a * b * inv a) by ring. rewrite E. ring.
Qed.
Lemma mul_neq a b : a <> 0 -> b <> 0 -> a * b <> 0.
Proof. intros A B E. apply mul_zero in E. tauto. Qed.
Lemma mul_cancel a b c : a <> 0 -> a * b = a * c -> b = c.
Proof.
  intros N E. assert (a * (b - c) = 0) as F by (replace (a * (b - c)) with (a * b - a * c) by ring; rewrite E; ring).
  apply mul_zero in F. destruct F as [F|F]; [contradiction|]. replace b with (b - c + c) by ring. rewrite F. ring.
Qed.
Lemma div_neq a b : a <> 0 -> b <> 0 -> div a b <> 0.
Proof. intros A B E. apply A. rewrite <- (div_mul a b B), E. ring. Qed.
Lemma div_0 b : div 0 b = 0. Proof. unfold div. ring. Qed.
Lemma inv_pos a : lt 0 a -> lt 0 (inv a).
Proof.
  intros L. pose proof (lt_neq _ _ L) as N. assert (a <> 0) as N' by congruence. assert (1 <> (0 : K)) as O by (intros O; apply N'; replace a with (1 * a) by ring; rewrite O; ring).
  destruct (lt_total K (inv a) 0) as [E|[E|E]]; [|exfalso|exact E].
  - exfalso. apply O. rewrite <- (inv_ok K a N'), E. ring.
  - apply lt_opp in E. pose proof (lt_mul K _ _ L E) as P. replace (a * - inv a) with (- (1 : K)) in P by (rewrite <- (inv_ok K a N'); ring).
    pose proof (lt_add_pos (- (1 : K)) 1 P (lt_asym _ _ (lt_0_1 O))) as Q. replace (- (1) + 1) with (0 : K) in Q by ring. exact (lt_neq _ _ Q eq_refl).
Qed.
Lemma div_pos a b : lt 0 a -> lt 0 b -> lt 0 (div a b).
Proof. intros A B. apply lt_mul; [exact A|apply inv_pos, B]. Qed.
Lemma div_nonneg a b : le 0 a -> lt 0 b -> le 0 (div a b).
Proof. intros A B. apply le_mul_pos; [exact A|apply lt_asym, inv_pos, B]. Qed.
End Facts.

(** The rational numbers. *)
Definition qlt (a b : Qc) : bool := match Qccompare a b with Lt => true | _ => false end.
Lemma qlt_ok a b : qlt a b = true <-> Qclt a b.
Proof. unfold qlt. rewrite Qclt_alt. destruct (Qccompare a b); split; congruence. Qed.
Definition Qcring : cring := {| car := Qc; r0 := 0%Qc; r1 := 1%Qc; radd := Qcplus; rmul := Qcmult; rsub := Qcminus; ropp := Qcopp; rth := Qcrt |}.
Lemma qeqb_ok a b : Qc_eq_bool a b = true <-> a = b.
Proof. split; [apply Qc_eq_bool_correct|]. intros ->. unfold Qc_eq_bool. destruct (Qc_eq_dec b b); congruence. Qed.
Lemma q_inv a : a <> 0%Qc -> (a * / a = 1)%Qc. Proof. apply Qcmult_inv_r. Qed.
Lemma q_irrefl a : qlt a a = false.
Proof. destruct (qlt a a) eqn:E; [|reflexivity]. apply qlt_ok in E. exfalso. exact (Qlt_irrefl _ E). Qed.
Lemma q_trans a b c : qlt a b = true -> qlt b c = true -> qlt a c = true.
Proof. rewrite !qlt_ok. apply Qclt_trans. Qed.
Lemma q_total a b : a = b \/ qlt a b = true \/ qlt b a = true.
Proof. rewrite !qlt_ok. destruct (Qc_dec a b) as [[L|L]|E]; auto. Qed.
Lemma q_add a b c : qlt a b = true -> qlt (a + c)%Qc (b + c)%Qc = true.
Proof. rewrite !qlt_ok. intros L. unfold Qclt, Qcplus in *. cbn [this Q2Qc] in *. rewrite !Qred_correct. apply Qplus_lt_l. exact L. Qed.
Lemma q_mul a b : qlt 0%Qc a = true -> qlt 0%Qc b = true -> qlt 0%Qc (a * b)%Qc = true.
Proof.
  rewrite !qlt_ok. intros A B. unfold Qclt, Qcmult in *. cbn [this Q2Qc] in *. rewrite !Qred_correct. change (this 0%Qc) with 0%Q in *.
  setoid_replace 0%Q with (0 * this b)%Q by ring. apply Qmult_lt_r; assumption.
Qed.
Definition Qf : ofield :=
  {| ofc := Qcring; inv := Qcinv; eqb := Qc_eq_bool; ltb := qlt; inv_ok := q_inv; eqb_ok := qeqb_ok; lt_irrefl := q_irrefl; lt_trans := q_trans; lt_total := q_total; lt_add := q_add; lt_mul := q_mul |}.
