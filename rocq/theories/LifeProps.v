(** Properties of the life of operators (C60). *)
From Verif Require Import Base FlagsModel AssocModel AssocSpec LifeModel LifeSpec LifeProofs.

(** In any state reached by ordinary operations (creations, copies, associated operators, rules, assignments, deletions),
    for any operator whose associated operators exist, two chains of .C, .T, .H and .I with the same parities lead to the
    same operator, and this operator is not a deleted one. *)
Theorem C60_group (threshold : nat) (cs : list cmd) (x : oid) (p q : list attr) :
  Forall ordinary cs -> let s := run threshold cs start in
  chain s x [AC] <> None -> bits p = bits q ->
  chain s x p = chain s x q /\ exists y, chain s x p = Some y /\ alive s y.
Proof. intros O s. apply group. exact (inv_run _ inv_start O). Qed.
Print Assumptions C60_group.

Example C60_group_case :
  Forall ordinary history1 /\ chain (run 100 history1 start) 0 [AC] <> None /\
  chain (run 100 history1 start) 8 [AT; AI; AT; AI] = Some 8%nat /\
  chain (run 100 history1 start) 0 [AT] <> chain (run 100 history1 start) 8 [AT].
Proof. split; [exact ordinary1|]. repeat split; vm_compute; try discriminate; reflexivity. Qed.

(** Once read, an associated operator stays the same object as long as the operator is not deleted. *)
Theorem C60_stable (threshold : nat) (cs cs' : list cmd) (x y : oid) (p : list attr) :
  Forall ordinary cs -> Forall ordinary cs' -> let s := run threshold cs start in let s' := run threshold cs' s in
  chain s x p = Some y -> alive s' x -> chain s' x p = Some y /\ alive s' y.
Proof. intros O O' s s'. apply stable_alive; [exact (inv_run _ inv_start O)|exact O']. Qed.
Print Assumptions C60_stable.

Example C60_stable_case :
  Forall ordinary history1 /\ Forall ordinary [CDelete 8] /\
  chain (run 100 history1 start) 0 [AI; AT] = Some 6%nat /\ alive (run 100 [CDelete 8] (run 100 history1 start)) 0 /\
  deleted (run 100 [CDelete 8] (run 100 history1 start)) 10.
Proof.
  split; [exact ordinary1|]. split; [repeat constructor|]. split; [vm_compute; reflexivity|].
  split; [eexists; vm_compute; reflexivity|exists 0%nat; vm_compute; reflexivity].
Qed.

(** Deleting an operator succeeds; it deletes the operators that its chains of .C, .T, .H, .I lead to, and leaves every other
    operator and all the rules as they are. *)
Theorem C60_delete (threshold : nat) (cs : list cmd) (o : oid) :
  Forall ordinary cs -> let s := run threshold cs start in objs s o <> None ->
  exists s', delete threshold o s = Ok s' /\ dicts s' = dicts s /\
    (forall x, related s o x -> objs s x <> None -> deleted s' x) /\
    (forall x, ~ related s o x -> objs s' x = objs s x).
Proof. intros O s. apply delete_theorem. exact (inv_run _ inv_start O). Qed.
Print Assumptions C60_delete.

Example C60_delete_case :
  Forall ordinary history1 /\ objs (run 100 history1 start) 2 <> None /\ related (run 100 history1 start) 2 0 /\
  chain (run 100 history1 start) 8 [] = Some 8%nat.
Proof.
  split; [exact ordinary1|]. split; [vm_compute; discriminate|]. split; [exists [AT]; vm_compute; reflexivity|reflexivity].
Qed.

(** It does not matter which one of the associated operators is asked to delete itself. *)
Theorem C60_delete_any (threshold : nat) (cs : list cmd) (o x : oid) :
  Forall ordinary cs -> let s := run threshold cs start in objs s o <> None -> related s o x ->
  exists s1 s2, delete threshold o s = Ok s1 /\ delete threshold x s = Ok s2 /\ forall y, deleted s1 y <-> deleted s2 y.
Proof. intros O s. apply delete_any. exact (inv_run _ inv_start O). Qed.
Print Assumptions C60_delete_any.

Example C60_delete_any_case :
  Forall ordinary history1 /\ objs (run 100 history1 start) 0 <> None /\ related (run 100 history1 start) 0 4.
Proof. split; [exact ordinary1|]. split; [vm_compute; discriminate|exists [AI]; vm_compute; reflexivity]. Qed.

(** The copy of an operator is a new object with the same attributes, except that the methods bound to the operator are bound
    to the copy and that the associated operators are not copied.  Nothing else changes. *)
Theorem C60_copy (threshold : nat) (cs : list cmd) (o : oid) (l : live) :
  Forall ordinary cs -> let s := run threshold cs start in objs s o = Some (Live l) ->
  exists s' x l', copy o s = Ok s' /\ objs s x = None /\ objs s' x = Some (Live l') /\
    flags_of l' = flags_of l /\ operands l' = operands l /\ size l' = size l /\ links l' = None /\
    (forall k v, attrs l k = Some (Plain v) -> attrs l' k = Some (Plain v)) /\
    (forall k f, attrs l k = Some (Bound f o) -> attrs l' k = Some (Bound f x)) /\
    (forall k f y, y <> o -> attrs l k = Some (Bound f y) -> attrs l' k = Some (Bound f y)) /\
    (forall k, attrs l k = None -> attrs l' k = None) /\
    (forall y, y <> x -> objs s' y = objs s y) /\ dicts s' = dicts s.
Proof. intros O s. apply copy_theorem. exact (inv_run _ inv_start O). Qed.
Print Assumptions C60_copy.

Example C60_copy_case : Forall ordinary history1 /\ exists l, objs (run 100 history1 start) 0 = Some (Live l) /\
  attrs l 0 = Some (Bound 7 0) /\ links l <> None.
Proof.
  split; [exact ordinary1|]. eexists. split; [vm_compute; reflexivity|]. split; [reflexivity|discriminate].
Qed.

(** Ordinary operations on new operators, a copy for instance, do not change the operators that existed before (their
    attributes, their associated operators, whether they are deleted); if none of these operations sets or deletes rules,
    their rules do not change either. *)
Theorem C60_independent_partial (threshold : nat) (cs cs' : list cmd) :
  Forall ordinary cs -> Forall ordinary cs' -> let s := run threshold cs start in let s' := run threshold cs' s in
  Forall (fun c => forall z, target c = Some z -> (next s <= z)%nat) cs' ->
  (forall y, (y < next s)%nat -> objs s' y = objs s y) /\
  (Forall (fun c => ~ writes_rules c) cs' -> forall k, (k < nextdict s)%nat -> dicts s' k = dicts s k).
Proof. intros O O' s s' T. apply independent; [exact (inv_run _ inv_start O)|exact O'|exact T]. Qed.
Print Assumptions C60_independent_partial.

Example C60_independent_case :
  let s := run 100 [CNew (plain [Linear]); CAssociate 0 kids] start in
  let cs' := [CCopy 0; CAssign 8 3 (Plain 5); CAssociate 8 kids; CDelete 8] in
  Forall ordinary cs' /\ Forall (fun c => forall z, target c = Some z -> (next s <= z)%nat) cs' /\
  Forall (fun c => ~ writes_rules c) cs' /\ deleted (run 100 cs' s) 8 /\ alive (run 100 cs' s) 0.
Proof. exact independent_case. Qed.

(** The counter of the bytes freed stays below the threshold, every collection takes place at or above it, and no byte is
    forgotten: the bytes of the deleted operators are those of the collections and of the counter.  This holds for any
    history. *)
Theorem C60_counter (threshold : nat) (cs : list cmd) : let s := run threshold cs start in
  ((0 < threshold)%nat -> (counter s < threshold)%nat) /\
  Forall (fun c => (threshold <= c)%nat) (collected s) /\
  (counter s + list_sum (collected s))%nat = freed s.
Proof.
  intros s. pose proof (counted_run cs (counted_start threshold)) as H.
  split; [exact (c_low H)|split; [exact (c_high H)|exact (c_sum H)]].
Qed.
Print Assumptions C60_counter.

Example C60_counter_case :
  let s := run 12 [CNew (plain [Linear]); CNew (plain [Linear]); CDelete 0; CNew (plain [Linear]); CDelete 1; CDelete 2] start in
  counter s = 8%nat /\ collected s = [16%nat] /\ freed s = 24%nat.
Proof. vm_compute. repeat split. Qed.

(** Finding: a copy shares the rules of the original: a rule set on the copy is set on the original. *)
Theorem C60_copy_rules_refuted : exists cs s l,
  s = run 100 [CNew (plain [Linear])] start /\ objs s 0%nat = Some (Live l) /\
  cs = [CCopy 0; CSetRule 1 aT PNew] /\ Forall ordinary cs /\ Forall (on_new (next s)) cs /\
  dicts s (rules l) aT = None /\ dicts (run 100 cs s) (rules l) aT = Some PNew.
Proof. exact copy_rules_refuted. Qed.
Print Assumptions C60_copy_rules_refuted.

(** Finding: AdditionOperator([A], flags='symmetric') changes A, which shares its rules: A.T then is A, although A is not
    symmetric. *)
Theorem C60_single_operand_refuted : exists s s' l,
  s = run 100 [CNew (plain [Linear]); CAssociate 0 kids] start /\
  s' = run 100 [CNew (plain [Linear]); CWrap 0 (Some (fl [Linear; Symmetric] true)); CAssociate 0 kids] start /\
  objs s' 0%nat = Some (Live l) /\ flags_of l Symmetric = false /\
  chain s 0 [AT] <> Some 0%nat /\ chain s' 0 [AT] = Some 0%nat.
Proof. exact wrap_flags_refuted. Qed.
Print Assumptions C60_single_operand_refuted.

(** Finding: for an operator A = Operator(direct, transpose=..., flags='linear,involutary'), the operator A + 0 has the rules
    of A, in which the inverse is the operator itself, but not its flag involutary: its transpose is overwritten by the
    transpose of its inverse, an operator without direct method, so that (A + 0).T cannot be applied although A.T can. *)
Theorem C60_plus_zero_refuted : exists s,
  s = run 100 [CNew (plain [Linear; Involutary]); CWrap 0 (Some (fl [Linear; Square] true)); CAssociate 1 kids] start /\
  chain s 1 [AT] = Some (2 + slot_number aIT)%nat /\ nIT zero_table = New aIT SNone /\ nT zero_table = New aT (SMethod aT) /\
  chain s 1 [AT; AI] <> chain s 1 [AI; AT].
Proof. exact zero_refuted. Qed.
Print Assumptions C60_plus_zero_refuted.

(** Finding: composing an idempotent operator P with itself, as in A * P * P, resets P: P.T then is a new operator, the
    transpose t read before being still there with t.T = P.  Deleting P leaves t, whose transpose is a deleted operator. *)
Theorem C60_idempotent_refuted : exists s t,
  s = run 100 [CNew (plain [Linear; Idempotent]); CAssociate 0 kids] start /\ chain s 0 [AT] = Some t /\
  (let s1 := run 100 [CSquare 0; CAssociate 0 kids] s in
   chain s1 t [AT] = Some 0%nat /\ chain s1 0 [AT] <> Some t) /\
  (let s2 := run 100 [CSquare 0; CDelete 0] s in alive s2 t /\ chain s2 t [AT] = Some 0%nat /\ deleted s2 0).
Proof. exact square_refuted. Qed.
Print Assumptions C60_idempotent_refuted.

(** Finding: deleting an operator leaves the composites that have it as operand, with a deleted operand. *)
Theorem C60_operands_refuted : exists s s' l,
  s = run 100 [CNew (plain [Linear]); CNew (plain [Linear]); CComposite (plain [Linear]) [0; 1]%nat] start /\
  s' = run 100 [CDelete 0] s /\
  objs s' 2%nat = Some (Live l) /\ In 0%nat (operands l) /\ deleted s' 0.
Proof. exact operands_refuted. Qed.
Print Assumptions C60_operands_refuted.

(** Finding: the bytes of the operands are counted as freed when a composite is deleted, although they are not, and counted
    again when the operands are deleted: here two operators of 8 bytes count for 32. *)
Theorem C60_counted_twice_refuted : exists s,
  s = run 100 [CNew (plain [Linear]); CNew (plain [Linear]); CComposite (plain [Linear]) [0; 1]%nat;
               CDelete 2; CDelete 0; CDelete 1] start /\ counter s = 32%nat.
Proof. exact twice_refuted. Qed.
Print Assumptions C60_counted_twice_refuted.
