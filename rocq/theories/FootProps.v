(** C72: memory footprints. *)
From Coq Require Import List Arith.
From Verif Require Import Base FootModel FootSpec FootProofs.
Import ListNotations.

(** The footprint of an operator without powers never underestimates the memory that its arrays hold. *)
Theorem C72_upper : forall size fuel o, depth o <= fuel -> coherent o -> ~ has_power o -> exists n, nbytes size fuel o = Ok n /\ held size o <= n.
Proof. exact nbytes_upper. Qed.
Print Assumptions C72_upper.
Example C72_upper_case : coherent nested /\ ~ has_power nested /\ nbytes bytes 5 nested = Ok 9600 /\ held bytes nested = 8800.
Proof. split; [exact nested_coherent|]. split; [exact nested_no_power|]. split; vm_compute; reflexivity. Qed.

(** It is exact when arrays are not shared, even if the same operand is repeated in a composite. *)
Theorem C72_exact : forall size fuel o, depth o <= fuel -> coherent o -> ~ has_power o -> tidy o -> nbytes size fuel o = Ok (held size o).
Proof. intros size fuel o D C P T. apply nbytes_exact; try assumption. apply tidy_counted, T. Qed.
Print Assumptions C72_exact.
Example C72_exact_case : tidy sum1 /\ coherent sum1 /\ nbytes bytes 5 sum1 = Ok 8800.
Proof. split; [exact sum1_tidy|]. split; [exact sum1_coherent|]. vm_compute. reflexivity. Qed.

(** The footprint is known exactly when no power of a Python number is inside, at any depth; otherwise AttributeError is raised. *)
Theorem C72_raises : forall size fuel o, depth o <= fuel -> coherent o ->
  (has_plain_power o -> nbytes size fuel o = Raise AttributeError) /\ (~ has_plain_power o -> exists n, nbytes size fuel o = Ok n).
Proof. exact nbytes_power. Qed.
Print Assumptions C72_raises.
Example C72_raises_case : coherent mixed /\ nbytes bytes 5 mixed = Raise AttributeError /\ nbytes bytes 5 nested = Ok 9600.
Proof. split; [exact mixed_coherent|]. split; vm_compute; reflexivity. Qed.

(** Without such powers, deleting an operator deletes the whole group of its associated operators. *)
Theorem C72_delete : forall size fuel group, (forall o, In o group -> depth o <= fuel /\ coherent o /\ ~ has_plain_power o) -> delete size fuel group = (map id_of group, None).
Proof. intros size fuel group H. apply delete_ok. intros o O. destruct (H o O) as (D & C & P). apply (nbytes_power size D C), P. Qed.
Print Assumptions C72_delete.
Example C72_delete_case : delete bytes 5 [sum1; nested] = ([2; 5], None).
Proof. vm_compute. reflexivity. Qed.

(** Finding: an operand that is shared by two composites inside a composite is counted twice: the footprint exceeds the memory that is held. *)
Theorem C72_shared_refuted : exists size o n, coherent o /\ ~ has_power o /\ nbytes size 5 o = Ok n /\ held size o < n.
Proof. exists bytes, nested, 9600. split; [exact nested_coherent|]. split; [exact nested_no_power|]. split; [vm_compute; reflexivity|]. apply Nat.ltb_lt. vm_compute. reflexivity. Qed.
Print Assumptions C72_shared_refuted.

(** Finding: the footprint of PowerOperator(3), and of the square, square root and reciprocal, raises AttributeError, since the exponent is a Python number; the operator, or a composite that
    contains it, cannot be deleted. *)
Theorem C72_power_refuted : exists o, coherent o /\ (forall size, nbytes size 5 o = Raise AttributeError) /\ forall size, delete size 5 [o] = ([], Some AttributeError).
Proof. exists mixed. split; [exact mixed_coherent|]. split; intros size; reflexivity. Qed.
Print Assumptions C72_power_refuted.
