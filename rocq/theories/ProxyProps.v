(** C31: proxied operators.  C38: the single-process MPI stand-in. *)
From Verif Require Import Base ProxyModel ProxySpec ProxyProofs.

(** ** C31 *)
(** Whatever the history of uses of the proxies of a group, every call and every access to an attribute through the proxy
    of index j is done on an operator returned by the callback for j, that has not been deleted, with the right
    associated operator. *)
Theorem C31_calls cb (F : fresh cb) us : exists s s' es,
  proxy_group cb = Some s /\ do_uses cb us s = (s', es) /\
  forall k j a, nth_error us k = Some (Call j a) -> forall e, nth_error es k = Some e ->
    exists o, operator_of cb j o /\ e = Called o a.
Proof.
  destruct (proxy_group_inv cb F) as [s [E [H _]]]. destruct (uses_ok cb F us s H) as [s' [es [E2 [_ [_ R]]]]].
  exists s, s', es. repeat split; auto. intros k j a Hu e He. exact (R k _ e Hu He).
Qed.
Print Assumptions C31_calls.

(** The callback is called once for each change of index, and once to make the group: no call for consecutive uses of the
    same index. *)
Theorem C31_callback_calls cb (F : fresh cb) us s s' es :
  proxy_group cb = Some s -> do_uses cb us s = (s', es) ->
  rev (calls s') = 0 :: changes 0 (flat_map called us).
Proof.
  intros E0 E1. destruct (proxy_group_inv cb F) as [t [E [H [C N]]]]. rewrite E0 in E. injection E as <-.
  destruct (uses_ok cb F us s H) as [s2 [es2 [E2 [_ [R _]]]]]. rewrite E1 in E2. injection E2 as <- <-.
  rewrite R, C, N. reflexivity.
Qed.
Print Assumptions C31_callback_calls.

(** Exactly one of the operators returned by the callback is alive. *)
Theorem C31_one_alive cb (F : fresh cb) us s s' es :
  proxy_group cb = Some s -> do_uses cb us s = (s', es) ->
  exists o, In o (objects s') /\ forall o', In o' (objects s') -> deleted s' o' = false <-> o' = o.
Proof.
  intros E0 E1. destruct (proxy_group_inv cb F) as [t [E [H _]]]. rewrite E0 in E. injection E as <-.
  exists (cobj s'). split; [|exact (uses_alive cb F us s s' es H E1)].
  destruct (uses_ok cb F us s H) as [s2 [es2 [E2 [H2 _]]]]. rewrite E1 in E2. injection E2 as <- <-.
  destruct (p_objects cb s' H2) as [l [-> _]]. left. reflexivity.
Qed.
Print Assumptions C31_one_alive.

(** Partial: the methods on shapes exchange input and output exactly for the associated operators that do, but they are
    those of the operator of the index of the last call, which need not be that of the proxy. *)
Theorem C31_shapes_partial cb (F : fresh cb) us : exists s s' es,
  proxy_group cb = Some s /\ do_uses cb us s = (s', es) /\
  forall k j a m, nth_error us k = Some (Shape j a m) -> forall e, nth_error es k = Some e ->
    exists o, operator_of cb (last (flat_map called (firstn k us)) 0) o /\ e = Shaped o (method_of_associated a m).
Proof.
  destruct (proxy_group_inv cb F) as [s [E [H [_ N]]]]. destruct (uses_ok cb F us s H) as [s' [es [E2 [_ [_ R]]]]].
  exists s, s', es. repeat split; auto. intros k j a m Hu e He. rewrite N in R. exact (R k _ e Hu He).
Qed.
Print Assumptions C31_shapes_partial.

(** A callback that meets the hypothesis. *)
Definition cb_ex (i n : nat) : option nat := Some (n * 3 + i mod 3).
Example cb_ex_fresh : fresh cb_ex.
Proof.
  split; [eexists; reflexivity|]. unfold cb_ex. intros i j n m o H1 H2.
  pose proof (Nat.mod_upper_bound i 3 ltac:(lia)). pose proof (Nat.mod_upper_bound j 3 ltac:(lia)).
  assert (n * 3 + i mod 3 = m * 3 + j mod 3) by congruence. lia.
Qed.
Example C31_ex : match proxy_group cb_ex with
                 | Some s => let (s', es) := do_uses cb_ex [Call 1 SelfOp; Call 1 T; Call 2 H; Shape 2 T ReshapeIn; Call 0 I] s in
                             (rev (calls s'), es) = ([0; 1; 2; 0], [Called 4 SelfOp; Called 4 T; Called 8 H; Shaped 8 ReshapeOut; Called 9 I])
                 | None => False
                 end.
Proof. reflexivity. Qed.

(** The methods on shapes of a proxy may be those of the operator of another index: here proxy 1 is asked and it is the
    operator 0 that answers, though the callback returns different operators for 0 and 1. *)
Theorem C31_shapes_refuted : exists cb s s' o m,
  fresh cb /\ proxy_group cb = Some s /\ do_use cb (Shape 1 SelfOp ReshapeIn) s = (s', Shaped o m) /\ ~ operator_of cb 1 o.
Proof.
  exists cb_ex, {| cnum := 0; cobj := 0; calls := [0]; objects := [0]; deleted := fun _ => false |}. do 3 eexists.
  split; [apply cb_ex_fresh|]. split; [reflexivity|]. split; [reflexivity|].
  intros [n H]. unfold cb_ex in H. assert (E : n * 3 + 1 = 0) by (injection H; auto). lia.
Qed.
Print Assumptions C31_shapes_refuted.

(** If the callback fails once, the operator of the previous index, which is already deleted, stays in use. *)
Theorem C31_failure_refuted : exists cb s s' es,
  (forall i j n m o, cb i n = Some o -> cb j m = Some o -> n = m) /\ proxy_group cb = Some s
  /\ do_uses cb [Call 0 SelfOp; Call 1 SelfOp; Call 0 SelfOp] s = (s', es) /\ es = [Called 0 SelfOp; Failed; Dead 0].
Proof.
  exists (fun i n => match i with O => Some n | S _ => None end). do 3 eexists. split; [|repeat split].
  intros [|i] [|j] n m o; congruence.
Qed.
Print Assumptions C31_failure_refuted.

(** If the callback returns twice the same object (operators that the user keeps), it is used after it has been deleted. *)
Theorem C31_shared_refuted : exists cb s s' es,
  (forall i n, exists o, cb i n = Some o) /\ proxy_group cb = Some s
  /\ do_uses cb [Call 0 SelfOp; Call 1 SelfOp; Call 0 SelfOp] s = (s', es) /\ es = [Called 0 SelfOp; Called 1 SelfOp; Dead 0].
Proof.
  exists (fun i n => Some i). do 3 eexists. split; [eauto|]. repeat split.
Qed.
Print Assumptions C31_shared_refuted.

(** ** C38 *)
(** With a single process, a reduction by any operation, a gather and a broadcast from rank 0 give what the stand-in
    returns. *)
Theorem C38_collectives {A} (op : A -> A -> A) (x : A) :
  fake_allreduce x = reduce_all op x [] /\ fake_gather x = gather_all [x] /\ fake_allgather x = gather_all [x]
  /\ broadcast 0 [x] = Some (fake_bcast x)
  /\ (forall o, fake_Allreduce (Some x) o = reduce_all op x []) /\ fake_Allreduce None x = reduce_all op x [].
Proof. repeat split. Qed.
Print Assumptions C38_collectives.

(** Attribute caching: in every history that only uses keyvals that exist, on communicators that exist, and that frees a
    keyval only when it is not set any more, each call returns what it would return if keyvals were never confused. *)
Theorem C38_attributes os : all_allowed os sstart -> snd (mexecs os mstart) = snd (sexecs os sstart).
Proof. exact (mexecs_ok os mstart sstart minv_start). Qed.
Print Assumptions C38_attributes.

Example C38_attributes_ex :
  all_allowed [CreateKeyval; CreateKeyval; SetAttr 0 0 7; Dup 0; GetAttr 1 0; SetAttr 1 0 8; GetAttr 0 0; DeleteAttr 0 0; DeleteAttr 1 0; FreeKeyval 0; CreateKeyval; GetAttr 0 2] sstart
  /\ snd (mexecs [CreateKeyval; CreateKeyval; SetAttr 0 0 7; Dup 0; GetAttr 1 0; SetAttr 1 0 8; GetAttr 0 0; DeleteAttr 0 0; DeleteAttr 1 0; FreeKeyval 0; CreateKeyval; GetAttr 0 2] mstart)
     = [RUnit; RUnit; RUnit; RUnit; RVal None; RUnit; RVal (Some 7%Z); RUnit; RUnit; RUnit; RUnit; RVal None].
Proof.
  split; [|reflexivity]. simpl. repeat split; try reflexivity; try lia.
  intros [|[|c]]; reflexivity.
Qed.

(** A keyval freed while some communicator has a value for it: the next keyval created has the same number, and the value
    is seen through it. *)
Theorem C38_freed_keyval_refuted : exists os,
  (forall j, In (FreeKeyval j) os -> j = 0) /\ snd (mexecs os mstart) = [RUnit; RUnit; RUnit; RUnit; RVal (Some 7%Z)]
  /\ snd (sexecs os sstart) = [RUnit; RUnit; RUnit; RUnit; RVal None].
Proof.
  exists [CreateKeyval; SetAttr 0 0 7; FreeKeyval 0; CreateKeyval; GetAttr 0 1]. repeat split.
  intros j. simpl. intros H. repeat (destruct H as [H|H]; try discriminate); [injection H; auto|destruct H].
Qed.
Print Assumptions C38_freed_keyval_refuted.
