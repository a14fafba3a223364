(** C27: element-wise non-linear operators. *)
From Coq Require Import QArith Qabs Qround Lqa String Ascii.
From Coq Require Import Floats.SpecFloat.
From Verif Require Import Base Algebra NlModel NlSpec NlProofs.
Close Scope Q_scope. Close Scope string_scope.
Local Open Scope nat_scope.

(** The output can be the input, and it can be an array that does not overlap it. *)
Theorem C27_in_place : forall n op os, os <> 0%Z -> no_overwrite n (one op os) (one op os).
Proof. intros n op os H i j L p [<-|[]] [E|[]]. unfold cell in E. nia. Qed.
Theorem C27_out_of_place : forall n ip is op os, (forall i j, i < n -> j < n -> cell op os j <> cell ip is i) -> no_overwrite n (one op os) (one ip is).
Proof. intros n ip is op os H i j L p [<-|[]] [E|[]]. apply (H i j); [lia|lia|congruence]. Qed.

(** Hard thresholding: the numbers whose magnitude is above the threshold are kept, the others are zeroed. *)
Theorem C27_hard : forall n ip is tp ts op os m, no_overwrite n (one op os) (one op os) -> no_overwrite n (one op os) (one ip is) -> no_overwrite n (one op os) (one tp ts) ->
  let m' := hard_thresholding n ip is tp ts op os m in
  (forall i, i < n -> let x := m (cell ip is i) in let a := m (cell tp ts i) in
    (a < Qabs x -> m' (cell op os i) = x)%Q /\ (Qabs x <= a -> m' (cell op os i) = 0)%Q) /\ unchanged n (one op os) m m'.
Proof.
  intros n ip is tp ts op os m W R1 R2 m'. destruct (run_spec _ _ _ n m (body2_tame hard ip is tp ts op os)) as [D U]; auto.
  { intros i j L p P [Q|[Q|[]]]; [apply (R1 i j L p P); left; exact Q|apply (R2 i j L p P); left; exact Q]. }
  assert (m' = run (body2 hard ip is tp ts op os) n 0 m) as E. { unfold m', hard_thresholding. rewrite <- (loop2_run hard ip is tp ts op os n 0), !cell_0. reflexivity. }
  split; [|rewrite E; exact U]. intros i Hi x a. rewrite E, (D i) by (cbn; auto). unfold body2. rewrite upd_same. split; [apply hard_above|apply hard_below].
Qed.
(** Soft thresholding: the numbers are brought nearer to zero by the threshold. *)
Theorem C27_soft : forall n ip is tp ts op os m, no_overwrite n (one op os) (one op os) -> no_overwrite n (one op os) (one ip is) -> no_overwrite n (one op os) (one tp ts) ->
  let m' := soft_thresholding n ip is tp ts op os m in
  (forall i, i < n -> let x := m (cell ip is i) in let a := m (cell tp ts i) in (0 <= a)%Q ->
    (Qabs x <= a -> m' (cell op os i) == 0)%Q /\ (a < x -> m' (cell op os i) == x - a)%Q /\ (x < - a -> m' (cell op os i) == x + a)%Q) /\ unchanged n (one op os) m m'.
Proof.
  intros n ip is tp ts op os m W R1 R2 m'. destruct (run_spec _ _ _ n m (body2_tame soft ip is tp ts op os)) as [D U]; auto.
  { intros i j L p P [Q|[Q|[]]]; [apply (R1 i j L p P); left; exact Q|apply (R2 i j L p P); left; exact Q]. }
  assert (m' = run (body2 soft ip is tp ts op os) n 0 m) as E. { unfold m', soft_thresholding. rewrite <- (loop2_run soft ip is tp ts op os n 0), !cell_0. reflexivity. }
  split; [|rewrite E; exact U]. intros i Hi x a A. rewrite E, (D i) by (cbn; auto). unfold body2. rewrite upd_same. apply soft_spec, A.
Qed.
(** It is the proximal operator of the absolute value, and it does not increase distances. *)
Ltac prox x a z :=
  match goal with |- (_ <= ?r)%Q => pose proof (square_nonneg (z - x)); pose proof (square_nonneg z); pose proof (square_nonneg (z - x + a)); pose proof (square_nonneg (z - x - a)) end;
  try (assert (0 <= z * (a - x))%Q by (apply Qmult_le_0_compat; lra)); try (assert (0 <= (- z) * (a + x))%Q by (apply Qmult_le_0_compat; lra));
  try (assert (0 <= (- z) * a)%Q by (apply Qmult_le_0_compat; lra)); try (assert (0 <= z * a)%Q by (apply Qmult_le_0_compat; lra)); lra.
Theorem C27_proximal : forall x a z, (0 <= a)%Q -> let y := soft x a in
  ((1 # 2) * ((y - x) * (y - x)) + a * Qabs y <= (1 # 2) * ((z - x) * (z - x)) + a * Qabs z)%Q.
Proof.
  intros x a z A y. unfold y. destruct (soft_cases x a A) as [[E H]|[[E H]|[E H]]]; rewrite E.
  - destruct (abs_spec 0) as [[_ F]|[? F]]; [|lra]. rewrite F. destruct (abs_spec z) as [[? G]|[? G]]; rewrite G; prox x a z.
  - destruct (abs_spec (x - a)) as [[_ F]|[? F]]; [|lra]. rewrite F. destruct (abs_spec z) as [[? G]|[? G]]; rewrite G; prox x a z.
  - destruct (abs_spec (x + a)) as [[? F]|[_ F]]; [lra|]. rewrite F. destruct (abs_spec z) as [[? G]|[? G]]; rewrite G; prox x a z.
Qed.
Theorem C27_nonexpansive : forall x x' a, (0 <= a)%Q -> (Qabs (soft x a - soft x' a) <= Qabs (x - x'))%Q.
Proof.
  intros x x' a A. destruct (soft_cases x a A) as [[E H]|[[E H]|[E H]]]; destruct (soft_cases x' a A) as [[E' H']|[[E' H']|[E' H']]];
    destruct (abs_spec (soft x a - soft x' a)) as [[? F]|[? F]]; destruct (abs_spec (x - x')) as [[? G]|[? G]]; rewrite F, G; lra.
Qed.
(** The constructors raise if a threshold is negative; the identity that replaces null thresholds does what they do; so does the
    operator by which a product of hard thresholdings is replaced.  Hard thresholding is idempotent. *)
Theorem C27_make : forall cls a, (exists op, make_threshold cls a = Ok op) <-> Forall (fun v => 0 <= v)%Q a.
Proof.
  intros cls a. unfold make_threshold. assert (existsb (fun v => gtb 0 v) a = false <-> Forall (fun v => 0 <= v)%Q a) as E.
  { induction a as [|v a IH]; cbn; [split; auto; constructor|]. rewrite orb_false_iff, Forall_cons_iff, IH. pose proof (gtb_spec 0 v). destruct (gtb 0 v); intuition (try discriminate; try lra). }
  rewrite <- E. destruct (existsb _ a); [split; [intros [? ?]|]; discriminate|]. destruct (forallb _ a); split; eauto.
Qed.
Theorem C27_replaced : forall a op (x : nat -> Q) i, i < length a \/ length a = 1 -> 
  (make_threshold THard a = Ok op -> apply_threshold op x i == hard (x i) (at_ a i))%Q /\ (make_threshold TSoft a = Ok op -> apply_threshold op x i == soft (x i) (at_ a i))%Q.
Proof.
  intros a op x i Hi. assert (forallb (fun v => Qeq_bool v 0) a = true -> (at_ a i == 0)%Q) as Z.
  { intros F. rewrite forallb_forall in F. apply Qeq_bool_iff, F. unfold at_. destruct a as [|v [|w a]]; [destruct Hi as [Hi|Hi]; cbn in Hi; lia|cbn; auto|].
    apply nth_In. destruct Hi as [Hi|Hi]; cbn in *; lia. }
  unfold make_threshold. destruct (existsb _ a); [split; discriminate|]. destruct (forallb _ a); split; intros E; injection E as <-; cbn [apply_threshold]; try reflexivity.
  - rewrite <- hard_zero at 1. apply hard_comp; [reflexivity|]. symmetry. auto.
  - rewrite <- soft_zero at 1. apply soft_comp; [reflexivity|]. symmetry. auto.
Qed.
Theorem C27_product : forall a b op n (x : nat -> Q) i, Forall (fun v => 0 <= v)%Q a -> Forall (fun v => 0 <= v)%Q b -> 
  (length a = n \/ length a = 1) -> (length b = n \/ length b = 1) -> i < n -> rule_hard a b = Ok op ->
  (apply_threshold op x i == apply_threshold (THard a) (apply_threshold (THard b) x) i)%Q.
Proof.
  intros a b op n x i A B La Lb Hi E. cbn [apply_threshold]. assert (forall l, Forall (fun v => 0 <= v)%Q l -> (0 <= at_ l i)%Q) as P.
  { intros l F. rewrite Forall_forall in F. unfold at_. destruct l as [|v [|w l]]; [destruct i; cbn; lra|apply F; cbn; auto|]. destruct (Nat.lt_ge_cases i (length (v :: w :: l))) as [L|L].
    - apply F, nth_In, L.
    - rewrite nth_overflow by exact L. lra. }
  rewrite hard_hard by auto. destruct (maximum_at a b n i La Lb Hi) as [M ML]. destruct (C27_replaced (maximum a b) op x i) as [R _].
  - destruct ML as [ML|ML]; rewrite ML; auto.
  - rewrite (R E), M. reflexivity.
Qed.
Theorem C27_hard_idempotent : forall x a, (0 <= a)%Q -> (hard (hard x a) a == hard x a)%Q.
Proof. intros x a A. rewrite hard_hard by assumption. apply hard_comp; [reflexivity|]. pose proof (qmax_spec a a). lra. Qed.

(** Masking zeroes the numbers where the mask is true, in place or not. *)
Theorem C27_masking : forall (V : Type) (zero : V) n mask ip is mp ms op os m, no_overwrite n (one op os) (one op os) -> no_overwrite n (one op os) (one ip is) -> (ip = op -> is = os) ->
  let m' := masking zero n mask ip is mp ms op os m in
  (forall i, i < n -> m' (cell op os i) = if mask (cell mp ms i) then zero else m (cell ip is i)) /\ unchanged n (one op os) m m'.
Proof.
  intros V zero n mask ip is mp ms op os m W R S m'. unfold m', masking. destruct (Z.eqb_spec ip op) as [E|E].
  - rewrite E, (S E). destruct (run_spec _ _ _ n m (in_tame zero mask mp ms op os) W W) as [D U].
    rewrite <- (inplace_run zero mask mp ms op os n 0), !cell_0 in U. split; [|exact U]. intros i Hi. pose proof (D i (cell op os i) Hi (or_introl eq_refl)) as F.
    rewrite <- (inplace_run zero mask mp ms op os n 0), !cell_0 in F. rewrite F. unfold body_in. destruct (mask _); [apply upd_same|reflexivity].
  - destruct (run_spec _ _ _ n m (cp_tame zero mask ip is mp ms op os) R W) as [D U].
    rewrite <- (copy_run zero mask ip is mp ms op os n 0), !cell_0 in U. split; [|exact U]. intros i Hi. pose proof (D i (cell op os i) Hi (or_introl eq_refl)) as F.
    rewrite <- (copy_run zero mask ip is mp ms op os n 0), !cell_0 in F. rewrite F. unfold body_cp. destruct (mask _); apply upd_same.
Qed.
Theorem C27_masking_complex : forall (V : Type) (zero : V) n mask ip is mp ms op os m, no_overwrite n (two op os) (two op os) -> no_overwrite n (two op os) (two ip is) -> (ip = op -> is = os) ->
  let m' := cmasking zero n mask ip is mp ms op os m in
  (forall i, i < n -> m' (cell op os i) = (if mask (cell mp ms i) then zero else m (cell ip is i)) /\
    m' (cell op os i + 1)%Z = (if mask (cell mp ms i) then zero else m (cell ip is i + 1)%Z)) /\ unchanged n (two op os) m m'.
Proof.
  intros V zero n mask ip is mp ms op os m W R S m'. unfold m', cmasking. destruct (Z.eqb_spec ip op) as [E|E].
  - rewrite E, (S E). destruct (run_spec _ _ _ n m (cin_tame zero mask mp ms op os) W W) as [D U].
    rewrite <- (cinplace_run zero mask mp ms op os n 0), !cell_0 in U. split; [|exact U]. intros i Hi.
    pose proof (D i (cell op os i) Hi (or_introl eq_refl)) as F. pose proof (D i (cell op os i + 1)%Z Hi (or_intror (or_introl eq_refl))) as G.
    rewrite <- (cinplace_run zero mask mp ms op os n 0), !cell_0 in F, G. rewrite F, G. unfold cbody_in. destruct (mask _); [rewrite upd_first, upd_same|]; auto.
  - destruct (run_spec _ _ _ n m (ccp_tame zero mask ip is mp ms op os) R W) as [D U].
    rewrite <- (ccopy_run zero mask ip is mp ms op os n 0), !cell_0 in U. split; [|exact U]. intros i Hi.
    pose proof (D i (cell op os i) Hi (or_introl eq_refl)) as F. pose proof (D i (cell op os i + 1)%Z Hi (or_intror (or_introl eq_refl))) as G.
    rewrite <- (ccopy_run zero mask ip is mp ms op os n 0), !cell_0 in F, G. rewrite F, G. unfold cbody_cp. destruct (mask _); rewrite upd_first, upd_same; auto.
Qed.
(** The product by a conjugate, and the square modulus. *)
Theorem C27_multiply_conjugate : forall (K : cring) n ip1 is1 ip2 is2 op os (m : mem K),
  no_overwrite n (two op os) (two op os) -> no_overwrite n (two op os) (two ip1 is1) -> no_overwrite n (two op os) (two ip2 is2) ->
  let m' := multiply_conjugate n ip1 is1 ip2 is2 op os m in
  (forall i, i < n -> let a := m (cell ip1 is1 i) in let b := m (cell ip1 is1 i + 1)%Z in let c := m (cell ip2 is2 i) in let d := m (cell ip2 is2 i + 1)%Z in
    m' (cell op os i) = (a * c - b * (- d))%cr /\ m' (cell op os i + 1)%Z = (a * (- d) + b * c)%cr) /\ unchanged n (two op os) m m'.
Proof.
  intros K n ip1 is1 ip2 is2 op os m W R1 R2 m'. destruct (run_spec _ _ _ n m (mc_tame ip1 is1 ip2 is2 op os)) as [D U]; auto.
  { intros i j L p P Q. apply in_app_or in Q. destruct Q as [Q|Q]; [exact (R1 i j L p P Q)|exact (R2 i j L p P Q)]. }
  assert (m' = run (body_mc ip1 is1 ip2 is2 op os) n 0 m) as E. { unfold m'. rewrite <- (mc_run ip1 is1 ip2 is2 op os n 0), !cell_0. reflexivity. }
  split; [|rewrite E; exact U]. intros i Hi a b c d. rewrite E, !(D i) by (cbn; auto). unfold body_mc. cbn zeta. rewrite upd_first, upd_same. apply conjugate_product.
Qed.
Theorem C27_abs2 : forall (K : cring) n ip is op os (m : mem K), no_overwrite n (one op os) (one op os) -> no_overwrite n (one op os) (two ip is) ->
  let m' := abs2 n ip is op os m in
  (forall i, i < n -> let a := m (cell ip is i) in let b := m (cell ip is i + 1)%Z in m' (cell op os i) = (a * a + b * b)%cr) /\ unchanged n (one op os) m m'.
Proof.
  intros K n ip is op os m W R m'. destruct (run_spec _ _ _ n m (abs2_tame ip is op os) R W) as [D U].
  assert (m' = run (body_abs2 ip is op os) n 0 m) as E. { unfold m'. rewrite <- (abs2_run ip is op os n 0), !cell_0. reflexivity. }
  split; [|rewrite E; exact U]. intros i Hi a b. rewrite E, !(D i) by (cbn; auto). unfold body_abs2. apply upd_same.
Qed.
Theorem C27_abs2_real : forall (K : cring) n ip is op os (m : mem K), no_overwrite n (one op os) (one op os) -> no_overwrite n (one op os) (one ip is) ->
  let m' := abs2_real n ip is op os m in
  (forall i, i < n -> m' (cell op os i) = (m (cell ip is i) * m (cell ip is i))%cr) /\ unchanged n (one op os) m m'.
Proof.
  intros K n ip is op os m W R m'. destruct (run_spec _ _ _ n m (body1_tame (fun x : K => rmul x x) ip is op os) R W) as [D U].
  assert (m' = run (body1 (fun x : K => rmul x x) ip is op os) n 0 m) as E. { unfold m', abs2_real. rewrite <- (loop1_run (fun x : K => rmul x x) ip is op os n 0), !cell_0. reflexivity. }
  split; [|rewrite E; exact U]. intros i Hi. rewrite E, !(D i) by (cbn; auto). unfold body1. apply upd_same.
Qed.

(** Maximum, minimum, and clip: the nearest number of the interval; the upper limit if the interval is empty. *)
Theorem C27_maximum : forall x v, ((x <= v -> qmax x v == v) /\ (v <= x -> qmax x v == x))%Q.
Proof. intros x v. pose proof (qmax_spec x v). lra. Qed.
Theorem C27_minimum : forall x v, ((x <= v -> qmin x v == x) /\ (v <= x -> qmin x v == v))%Q.
Proof. intros x v. pose proof (qmin_spec x v). lra. Qed.
Theorem C27_clip : forall lo hi x, (lo <= hi)%Q -> let y := clip lo hi x in (lo <= y <= hi /\ (forall z, lo <= z <= hi -> Qabs (y - x) <= Qabs (z - x)) /\ (lo <= x <= hi -> y == x) /\ clip lo hi y == y)%Q.
Proof.
  intros lo hi x L y. unfold y, clip. pose proof (qmax_spec x lo) as M. pose proof (qmin_spec (qmax x lo) hi) as N. set (z := qmin (qmax x lo) hi) in *.
  pose proof (qmax_spec z lo) as M'. pose proof (qmin_spec (qmax z lo) hi) as N'. repeat split; try lra. intros t T.
  destruct (abs_spec (z - x)) as [[? E]|[? E]]; destruct (abs_spec (t - x)) as [[? F]|[? F]]; rewrite E, F; lra.
Qed.
Theorem C27_clip_empty : forall lo hi x, (hi <= lo)%Q -> (clip lo hi x == hi)%Q.
Proof. intros lo hi x L. unfold clip. pose proof (qmax_spec x lo) as M. pose proof (qmin_spec (qmax x lo) hi) as N. lra. Qed.

(** Rounding: whatever the method, the result is an integer, chosen as its name says, and rounding again changes nothing. *)
Theorem C27_round : forall method f, round_operator method = Ok f -> forall x, rounds (lower method) x (f x) /\ (f (f x) == f x)%Q.
Proof.
  intros method f E x. assert (forall x, rounds (lower method) x (f x)) as R.
  { clear x. unfold round_operator in E. revert E. generalize (lower method). intros s E x. cbn [assoc round_table] in E.
    revert E. repeat (match goal with |- context [String.eqb s ?t] => destruct (String.eqb_spec s t) as [->|_] end; [intros E; injection E as <-|]); [..|discriminate].
    apply rtz_ok. apply rtmi_ok. apply rtpi_ok. apply rhtmi_ok. apply rhtpi_ok. apply rhte_ok. }
  split; [apply R|]. apply (rounds_integer (lower method)); [apply R|]. apply (R x).
Qed.
Theorem C27_methods : forall method, (exists f, round_operator method = Ok f) <-> In (lower method) ["rtz"; "rtmi"; "rtpi"; "rhtmi"; "rhtpi"; "rhte"]%string.
Proof.
  intros method. unfold round_operator. generalize (lower method). intros s. cbn [assoc round_table In].
  repeat (match goal with |- context [String.eqb s ?t] => destruct (String.eqb_spec s t) as [->|?] end; [split; eauto 10|]).
  split; [intros [f E]; discriminate|]. intros H. exfalso. intuition congruence.
Qed.
(** Two of the documented methods, not said to be not implemented, do not exist; the names of the methods are garbled. *)
Theorem C27_methods_refuted : round_operator "rhti" = Raise ValueError /\ round_operator "rhto" = Raise ValueError.
Proof. split; reflexivity. Qed.
Theorem C27_names_refuted : round_str "rtmi" = "round_tmi"%string.
Proof. reflexivity. Qed.
(** In double precision, rounding half towards minus or plus infinity changes even integers, from 2^52: adding one half has
    no effect on them. *)
Theorem C27_double_rhtmi_refuted : drhtmi (of_Z (2 ^ 52)) = of_Z (2 ^ 52 - 1) /\ SFeqb (of_Z (2 ^ 52)) (of_Z (2 ^ 52 - 1)) = false.
Proof. split; vm_compute; reflexivity. Qed.
Theorem C27_double_rhtpi_refuted : drhtpi (of_Z (2 ^ 52 + 2)) = of_Z (2 ^ 52 + 3) /\ SFeqb (of_Z (2 ^ 52 + 2)) (of_Z (2 ^ 52 + 3)) = false.
Proof. split; vm_compute; reflexivity. Qed.
(** The masking loop takes an output that starts where the input starts for the input itself.  Here the input is
    read backwards (NumPy makes a copy in this case). *)
Theorem C27_masking_start_refuted : exists n mask ip is mp ms op os (m : mem Z), no_overwrite n (one op os) (one op os) /\ no_overwrite n (one op os) (one ip is) /\
  exists i, i < n /\ mask (cell mp ms i) = false /\ masking 0%Z n mask ip is mp ms op os m (cell op os i) <> m (cell ip is i).
Proof.
  exists 2, (fun _ => false), 0%Z, (-1)%Z, 0%Z, 1%Z, 0%Z, 1%Z, (fun p => p). split; [|split].
  - intros i j L p [<-|[]] [E|[]]. unfold cell in E. lia.
  - intros i j L p [<-|[]] [E|[]]. unfold cell in E. lia.
  - exists 1. split; [lia|split; [reflexivity|]]. vm_compute. discriminate.
Qed.

(** Examples *)
Example soft_in_place : map (fun p => Qred (soft_thresholding 3 0 2 10 0 0 2 (fun p => inject_Z match p with 0 => 5 | 1 => 7 | 2 => -1 | 4 => -4 | 10 => 2 | _ => 0 end%Z) p)) [0; 1; 2; 4]%Z
  = [3; 7; 0; -2]%Q.
Proof. vm_compute. reflexivity. Qed.
Example hard_array : rule_hard [1; 2]%Q [3 # 2]%Q = Ok (THard [3 # 2; 2]%Q). Proof. reflexivity. Qed.
Example hard_null : make_threshold THard [0; 0]%Q = Ok TIdentity. Proof. reflexivity. Qed.
Example round_half : map (fun m => match round_operator m with Ok f => Qred (f (- (5 # 2))%Q) | _ => 0%Q end) ["RTZ"; "rtmi"; "rtpi"; "rhtmi"; "rhtpi"; "rhte"]%string = [-2; -3; -2; -3; -2; -2]%Q.
Proof. vm_compute. reflexivity. Qed.
Example masking_in_place : map (masking 0%Z 3 (fun p => Z.eqb p 1) 5 2 0 1 5 2 (fun p => p)) [5; 6; 7; 8; 9]%Z = [5; 6; 0; 8; 9]%Z.
Proof. reflexivity. Qed.

Print Assumptions C27_in_place. Print Assumptions C27_out_of_place. Print Assumptions C27_hard. Print Assumptions C27_soft. Print Assumptions C27_proximal. Print Assumptions C27_nonexpansive.
Print Assumptions C27_make. Print Assumptions C27_replaced. Print Assumptions C27_product. Print Assumptions C27_hard_idempotent. Print Assumptions C27_masking. Print Assumptions C27_masking_complex.
Print Assumptions C27_multiply_conjugate. Print Assumptions C27_abs2. Print Assumptions C27_abs2_real. Print Assumptions C27_maximum. Print Assumptions C27_minimum. Print Assumptions C27_clip. Print Assumptions C27_clip_empty.
Print Assumptions C27_round. Print Assumptions C27_methods. Print Assumptions C27_methods_refuted. Print Assumptions C27_names_refuted. Print Assumptions C27_double_rhtmi_refuted. Print Assumptions C27_double_rhtpi_refuted. Print Assumptions C27_masking_start_refuted.
