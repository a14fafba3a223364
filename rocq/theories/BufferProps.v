(** Property theorems C13 and C14. *)
From Verif Require Import Base MemoryModel MemorySpec BufferModel BufferSpec BufferProofs.
Open Scope Z_scope.

(** C13: a call of a product of operators that do not use the pool, with an output distinct from the input: the output
    holds A1(A2(...(input))), every other existing array (the input in particular) is unchanged, and the pool holds the
    arrays it held plus the buffers allocated in between. *)
Theorem C13_product : forall V c malloc (oper : V -> V -> V) ops fs input output w w',
  alloc_ok c malloc -> ops <> [] -> Forall2 (tamely_means oper) ops fs -> ready c malloc input output w ->
  a_addr input <> a_addr output ->
  composition_direct c malloc ops true input output w = Ok w' ->
  computed c malloc assign (compose fs) input output w w'.
Proof.
  intros V c malloc oper ops fs i o w w' Ha Hne HF Hr Hneq E.
  apply (composition_spec c malloc Ha oper true ops fs true i o w w'); auto. apply tame_sem. exact HF.
Qed.
Print Assumptions C13_product.

(** C13: such a call raises no exception, when the buffers in the pool and the output are contiguous, the output has
    the size of the first operand, and the input and the output meet the requirements of the operators that
    read and write them. *)
Theorem C13_product_no_exception : forall V c malloc (oper : V -> V -> V) op0 ops opn asg input output w,
  alloc_ok c malloc -> (exists l, op0 :: ops = l ++ [opn] /\ l <> []) -> Forall (reliable oper) (op0 :: ops) ->
  ready c malloc input output w -> a_addr input <> a_addr output ->
  contigs (bpool w) -> a_contig output = true -> nbytes output = p_size op0 ->
  (p_al_in opn = true -> aligned_at c input = true) -> (p_ct_in opn = true -> a_contig input = true) ->
  (p_al_out op0 = true -> aligned_at c output = true) ->
  exists w', composition_direct c malloc (op0 :: ops) asg input output w = Ok w'.
Proof.
  intros V c malloc oper op0 ops opn asg i o w Ha. exact (composition_ok c malloc Ha oper op0 ops opn asg i o w).
Qed.
Print Assumptions C13_product_no_exception.

(** C13: the same with a reduction given as keyword [operation], if the first operand can update its output and works
    out of place: the output is combined with the image of the input. *)
Theorem C13_product_update : forall V c malloc (oper : V -> V -> V) op ops fs input output w w',
  alloc_ok c malloc -> Forall2 (tamely_means oper) (op :: ops) fs -> ready c malloc input output w ->
  a_addr input <> a_addr output -> p_update op = true -> p_inplace op = false ->
  composition_direct c malloc (op :: ops) false input output w = Ok w' ->
  computed c malloc oper (compose fs) input output w w'.
Proof.
  intros V c malloc oper op ops fs i o w w' Ha HF Hr Hneq Hu Hi E.
  apply (composition_spec c malloc Ha oper true (op :: ops) fs false i o w w'); auto; [discriminate|apply tame_sem; exact HF|].
  right. exists op, ops. auto.
Qed.
Print Assumptions C13_product_update.

(** C13, partial: an in-place call (the output is the input) is right when all operands work in place or when more
    than one step writes in another buffer than the one it reads.
    Missing: exactly one such step, see C13_inplace_call_refuted. *)
Theorem C13_product_inplace_partial : forall V c malloc (oper : V -> V -> V) ops fs input output w w',
  alloc_ok c malloc -> ops <> [] -> Forall2 (tamely_means oper) ops fs -> ready c malloc input output w ->
  a_addr input = a_addr output -> nbuffers c ops input output <> 2%nat \/ Forall (fun p => p_inplace p = true) ops ->
  composition_direct c malloc ops true input output w = Ok w' ->
  computed c malloc assign (compose fs) input output w w'.
Proof.
  intros V c malloc oper ops fs i o w w' Ha Hne HF Hr Heq HN E.
  apply (composition_spec c malloc Ha oper true ops fs true i o w w'); auto. apply tame_sem. exact HF.
Qed.
Print Assumptions C13_product_inplace_partial.

(** C13, partial: operands may themselves use the pool (sums, nested products) when the product goes through at most
    three buffers, input and output included.
    Missing: longer chains, see C13_nested_operand_refuted. *)
Theorem C13_product_nested_partial : forall V c malloc (oper : V -> V -> V) ops fs input output w w',
  alloc_ok c malloc -> ops <> [] -> Forall2 (means c malloc oper) ops fs -> ready c malloc input output w ->
  a_addr input <> a_addr output -> (nbuffers c ops input output <= 3)%nat ->
  composition_direct c malloc ops true input output w = Ok w' ->
  computed c malloc assign (compose fs) input output w w'.
Proof.
  intros V c malloc oper ops fs i o w w' Ha Hne HF Hr Hneq HN E.
  apply (composition_spec c malloc Ha oper false ops fs true i o w w'); auto. apply means_sem. exact HF.
Qed.
Print Assumptions C13_product_nested_partial.

(** C13: calling an operator on any array, in-place or not, aligned or not, of the right type or not: the value of the
    output is the image of the (converted) input, and nothing else is changed. *)
Theorem C13_call : forall V c malloc (oper : V -> V -> V) cast op f dtype_ok item x out w w',
  alloc_ok c malloc -> means c malloc oper op f -> ready c malloc x out w ->
  call c malloc cast op dtype_ok item true x out w = Ok w' ->
  computed c malloc assign (fun v => f (if dtype_ok then v else cast v)) x out w w'.
Proof.
  intros V c malloc oper cast op f d item x out w w' Ha Hm Hr E.
  apply (call_spec c malloc Ha oper cast op f d item true x out w w'); auto.
Qed.
Print Assumptions C13_call.

(** C13, partial: calling with a reduction, for an output that meets the requirements of an out-of-place operator.
    Missing: other outputs, see C13_call_update_refuted. *)
Theorem C13_call_update_partial : forall V c malloc (oper : V -> V -> V) cast op f dtype_ok item x out w w',
  alloc_ok c malloc -> means c malloc oper op f -> ready c malloc x out w ->
  iscompatible c out {| r_shape := a_shape out; r_item := item; r_aligned := p_al_out op; r_contig := p_ct_out op |} None = true ->
  a_addr x <> a_addr out -> p_inplace op = false ->
  call c malloc cast op dtype_ok item false x out w = Ok w' ->
  computed c malloc oper (fun v => f (if dtype_ok then v else cast v)) x out w w'.
Proof.
  intros V c malloc oper cast op f d item x out w w' Ha Hm Hr Hc Hneq Hi E.
  apply (call_spec c malloc Ha oper cast op f d item false x out w w'); auto.
Qed.
Print Assumptions C13_call_update_partial.

(** C13: a reduction cannot be given to an operator that does not know how to update its output. *)
Theorem C13_call_no_update : forall V c malloc (cast : V -> V) op dtype_ok item x out w,
  p_update op = false -> call c malloc cast op dtype_ok item false x out w = Raise ValueError.
Proof. intros V c malloc cast op d item x out w H. unfold call. rewrite H. reflexivity. Qed.
Print Assumptions C13_call_no_update.

(** C14: a call of a sum (of an element-wise product) with an output distinct from the input: the output holds
    f1(x) + ... + fn(x), every other existing array is unchanged and the pool holds what it held, whatever the operands
    that can update their output, and also if the operands use the pool themselves. *)
Theorem C14_sum : forall V c malloc (oper : V -> V -> V) ops fs,
  alloc_ok c malloc -> (forall a b, oper a b = oper b a) -> (forall a b d, oper a (oper b d) = oper (oper a b) d) ->
  Forall2 (means c malloc oper) ops fs ->
  behaves c malloc (commutative_direct c malloc oper ops) false assign (reduce oper fs).
Proof.
  intros V c malloc oper ops fs Ha Hc Hs HF.
  apply (commutative_spec c malloc Ha oper false Hc Hs ops fs). apply means_sem. exact HF.
Qed.
Print Assumptions C14_sum.

(** C14: such a call raises no exception. *)
Theorem C14_sum_no_exception : forall V c malloc (oper : V -> V -> V) ops input output w,
  alloc_ok c malloc -> (2 <= length ops)%nat -> Forall (reliable oper) ops -> ready c malloc input output w ->
  contigs (bpool w) -> exists w', commutative_direct c malloc oper ops input output w = Ok w'.
Proof. intros V c malloc oper ops i o w Ha. exact (commutative_ok c malloc Ha oper ops i o w). Qed.
Print Assumptions C14_sum_no_exception.

(** ** Concrete instances *)
Definition ex_c : config := {| alignment := 32; tol_num := 12; tol_den := 10 |}.
Definition ex_m (n : nat) : Z := 100000 + 1000 * Z.of_nat n.
Definition ex_arr (a n : Z) : arr :=
  {| a_addr := a; a_shape := [n]; a_item := 8; a_contig := true; a_lo := a; a_hi := a + 8 * n |}.
Definition ex_w (p : pool) : world Z := W p 0 (fun a => a).

(** An operator that clears its output and then reads its input, as out-of-place operators may. *)
Definition clearing (f : Z -> Z) : bool -> arr -> arr -> world Z -> result (world Z) :=
  fun upd i o w =>
    let old := bheap w (a_addr o) in
    let w := write w (a_addr o) 0 in
    let y := f (bheap w (a_addr i)) in
    Ok (write w (a_addr o) (if upd then old + y else y)).

Definition ex_op (inplace update : bool) (n : Z) (f : Z -> Z) : operand Z :=
  {| p_inplace := inplace; p_update := update; p_al_in := false; p_al_out := false; p_ct_in := false; p_ct_out := false;
     p_shape := [n]; p_item := 8; p_exec := if inplace then leaf f Z.add else clearing f |}.

Lemma ex_alloc : alloc_ok ex_c ex_m.
Proof.
  assert (H : forall n a, fresh_addr ex_c ex_m n a -> ex_m n <= a <= ex_m n + 32).
  { intros n a (shape & item & ->). unfold empty. destruct (_ =? 0); cbn [a_addr]; [lia|].
    pose proof (Z.mod_pos_bound (ex_m n) (alignment ex_c) eq_refl). cbn [alignment ex_c] in *. lia. }
  intros n m a Hn Hm. apply H in Hn. apply H in Hm. unfold ex_m in *. lia.
Qed.

Lemma ex_tame ip up n f : tamely_means Z.add (ex_op ip up n f) f.
Proof.
  unfold tamely_means, tame. cbn [ex_op p_exec p_inplace p_update].
  split; [|intros _]; intros i o w w' E; destruct ip; unfold leaf, clearing in E; injection E as <-; cbn;
    (split; [reflexivity|]); (split; [reflexivity|]);
    (split; [intros a Ha; destruct (Z.eqb_spec a (a_addr o)); [contradiction|reflexivity]|]);
    rewrite ?Z.eqb_refl; intros [H|H]; try discriminate; try reflexivity;
    destruct (Z.eqb_spec (a_addr i) (a_addr o)); try contradiction; reflexivity.
Qed.

Lemma ex_means ip up n f : means ex_c ex_m Z.add (ex_op ip up n f) f.
Proof.
  destruct (ex_tame ip up n f) as [H1 H2]. split; [apply tame_behaves; exact H1|].
  intros H. apply tame_behaves. exact (H2 H).
Qed.

Lemma ex_reliable ip up n f : 0 <= n -> reliable Z.add (ex_op ip up n f).
Proof.
  intros Hn. split; [exists f; apply ex_tame|]. split; [|unfold p_size, zprod, ex_op; cbn [p_shape p_item fold_right]; lia].
  intros u i o w. cbn. destruct ip; eexists; reflexivity.
Qed.

Lemma ex_old p a : a < 100000 -> old ex_c ex_m (ex_w p) a.
Proof.
  intros Ha n _ (shape & item & H). unfold empty in H. destruct (_ =? 0); cbn [a_addr] in H; unfold ex_m in H; [lia|].
  pose proof (Z.mod_pos_bound (100000 + 1000 * Z.of_nat n) 32 eq_refl). cbn [alignment ex_c] in H. unfold ex_m in H. lia.
Qed.

Lemma ex_ready i o p : pool_inv p -> Forall (fun b => a_addr b < 100000) p -> a_addr i < 100000 -> a_addr o < 100000 ->
  ~ In (a_addr i) (addrs p) -> ~ In (a_addr o) (addrs p) -> ready ex_c ex_m i o (ex_w p).
Proof.
  intros Hp Hf Hi Ho Hni Hno. split; [|split; [apply ex_old; exact Hi|split; [apply ex_old; exact Ho|split; assumption]]].
  split; [exact Hp|]. apply Forall_map. eapply Forall_impl; [|exact Hf]. cbn. intros b Hb. apply ex_old. exact Hb.
Qed.

Definition ex_pool : pool := [flat (ex_arr 8000 1); flat (ex_arr 9000 2)].
Lemma ex_pool_ready i o : a_addr i < 8000 -> a_addr o < 8000 -> ready ex_c ex_m i o (ex_w ex_pool).
Proof.
  intros Hi Ho. apply ex_ready; try lia; cbn; [|repeat constructor; cbn; lia|intros [|[|[]]]; lia|intros [|[|[]]]; lia].
  split; [|split]; repeat constructor; cbn; intuition; try discriminate; try lia.
Qed.

Lemma ex_nil_ready i o : a_addr i < 8000 -> a_addr o < 8000 -> ready ex_c ex_m i o (ex_w []).
Proof. intros Hi Ho. apply ex_ready; try lia; cbn; auto. split; [|split]; repeat constructor. Qed.

Ltac all2 H := repeat (apply Forall2_cons; [apply H|]); apply Forall2_nil.

Definition result_of (r : result (world Z)) : world Z := match r with Ok w => w | Raise _ => ex_w [] end.
Lemma is_ok r : (match r with Ok _ => true | Raise _ => false end) = true -> r = Ok (result_of r).
Proof. destruct r; [reflexivity|discriminate]. Qed.

Definition value {V} (r : result (world V)) (a : Z) (d : V) : V := match r with Ok w => bheap w a | Raise _ => d end.

(** A product of three out-of-place operators and two in-place ones, with different sizes. *)
Definition ex_prod : list (operand Z) :=
  [ex_op true false 2 (Z.add 1); ex_op false false 2 (Z.mul 2); ex_op false true 4 (Z.add 5); ex_op true false 3 (Z.mul 10);
   ex_op false false 1 (Z.sub 7)].
Definition ex_fs : list (Z -> Z) := [Z.add 1; Z.mul 2; Z.add 5; Z.mul 10; Z.sub 7].

Example C13_witness :
  ready ex_c ex_m (ex_arr 5000 3) (ex_arr 6000 2) (ex_w ex_pool)
  /\ Forall2 (tamely_means Z.add) ex_prod ex_fs /\ Forall (reliable Z.add) ex_prod
  /\ contigs ex_pool /\ nbytes (ex_arr 6000 2) = p_size (ex_op true false 2 (Z.add 1))
  /\ nbuffers ex_c ex_prod (ex_arr 5000 3) (ex_arr 6000 2) = 4%nat
  /\ compose ex_fs 5000 = -99849
  /\ let r := composition_direct ex_c ex_m ex_prod true (ex_arr 5000 3) (ex_arr 6000 2) (ex_w ex_pool) in
     value r 6000 0 = -99849 /\ value r 5000 0 = 5000
     /\ match r with Ok w => map a_addr (bpool w) = [8000; 9000; 100032; 101024] /\ bn w = 2%nat | Raise _ => False end.
Proof.
  split; [apply ex_pool_ready; cbn; lia|]. split; [all2 ex_tame|].
  split; [repeat (apply Forall_cons; [apply ex_reliable; lia|]); apply Forall_nil|]. split; [repeat constructor|].
  vm_compute. repeat split.
Qed.

Example C13_update_witness :
  let ops := [ex_op false true 2 (Z.mul 2); ex_op true false 2 (Z.add 1)] in
  value (composition_direct ex_c ex_m ops false (ex_arr 5000 2) (ex_arr 6000 2) (ex_w ex_pool)) 6000 0
  = 6000 + compose [Z.mul 2; Z.add 1] 5000.
Proof. reflexivity. Qed.

(** In-place calls: with two out-of-place steps, and with none. *)
Example C13_inplace_witness :
  let a := ex_arr 5000 2 in
  let ops := [ex_op true false 2 (Z.add 1); ex_op false false 2 (Z.mul 2); ex_op false false 2 (Z.add 3)] in
  nbuffers ex_c ops a a = 3%nat
  /\ value (composition_direct ex_c ex_m ops true a a (ex_w ex_pool)) 5000 0 = compose [Z.add 1; Z.mul 2; Z.add 3] 5000
  /\ let ops := [ex_op true false 2 (Z.add 1); ex_op true false 2 (Z.mul 2)] in
     nbuffers ex_c ops a a = 1%nat
     /\ value (composition_direct ex_c ex_m ops true a a (ex_w ex_pool)) 5000 0 = compose [Z.add 1; Z.mul 2] 5000.
Proof. vm_compute. repeat split. Qed.

(** A sum in which two operands cannot update the output. *)
Definition ex_sum : list (operand Z) :=
  [ex_op false true 1 (Z.add 1); ex_op false false 1 (Z.mul 2); ex_op true true 1 (Z.sub 5); ex_op true false 1 (Z.mul 3)].
Definition ex_sum_fs : list (Z -> Z) := [Z.add 1; Z.mul 2; Z.sub 5; Z.mul 3].

Example C14_witness :
  ready ex_c ex_m (ex_arr 5000 1) (ex_arr 6000 1) (ex_w ex_pool)
  /\ Forall2 (means ex_c ex_m Z.add) ex_sum ex_sum_fs
  /\ reduce Z.add ex_sum_fs 10 = 11 + 20 - 5 + 30
  /\ let r := commutative_direct ex_c ex_m Z.add ex_sum (ex_arr 5000 1) (ex_arr 6000 1) (ex_w ex_pool) in
     value r 6000 0 = reduce Z.add ex_sum_fs 5000 /\ value r 5000 0 = 5000
     /\ match r with Ok w => map a_addr (bpool w) = [8000; 9000] | Raise _ => False end.
Proof.
  split; [apply ex_pool_ready; cbn; lia|]. split; [all2 ex_means|]. vm_compute. repeat split.
Qed.

(** The sum as an operand of a product. *)
Definition sum_op (n : Z) (ops : list (operand Z)) : operand Z :=
  {| p_inplace := false; p_update := false; p_al_in := false; p_al_out := false; p_ct_in := false; p_ct_out := false;
     p_shape := [n]; p_item := 8; p_exec := fun _ => commutative_direct ex_c ex_m Z.add ops |}.

Lemma ex_sum_means n ops fs : Forall2 (means ex_c ex_m Z.add) ops fs -> means ex_c ex_m Z.add (sum_op n ops) (reduce Z.add fs).
Proof.
  intros H. split; [|discriminate].
  apply (C14_sum Z ex_c ex_m Z.add ops fs ex_alloc Z.add_comm (fun a b d => Z.add_assoc a b d) H).
Qed.

Example C13_nested_witness :
  let ops := [ex_op true false 1 (Z.add 1); sum_op 1 ex_sum; ex_op false false 1 (Z.mul 2)] in
  let fs := [Z.add 1; reduce Z.add ex_sum_fs; Z.mul 2] in
  Forall2 (means ex_c ex_m Z.add) ops fs
  /\ nbuffers ex_c ops (ex_arr 5000 1) (ex_arr 6000 1) = 3%nat
  /\ value (composition_direct ex_c ex_m ops true (ex_arr 5000 1) (ex_arr 6000 1) (ex_w [])) 6000 0 = compose fs 5000.
Proof.
  split; [|vm_compute; repeat split]. repeat apply Forall2_cons; try apply Forall2_nil; try apply ex_means.
  apply ex_sum_means. all2 ex_means.
Qed.

(** A call on a misaligned input of another type, for an operator that wants aligned arrays. *)
Definition ex_al : operand Z :=
  {| p_inplace := false; p_update := true; p_al_in := true; p_al_out := true; p_ct_in := true; p_ct_out := true;
     p_shape := [2]; p_item := 8; p_exec := clearing (Z.mul 2) |}.
Example C13_call_witness :
  let r := call ex_c ex_m (Z.add 100) ex_al false 8 true (ex_arr 5008 2) (ex_arr 6008 2) (ex_w ex_pool) in
  value r 6008 0 = 2 * (100 + 5008) /\ value r 5008 0 = 5008
  /\ match r with Ok w => map a_addr (bpool w) = [8000; 101024; 100032; 9000] | Raise _ => False end.
Proof. vm_compute. repeat split. Qed.

(** Finding: products declare that they can be called with their input as output, but when exactly one of the operands
    works out of place, this operand is given its input as output. *)
Theorem C13_inplace_call_refuted : exists ops fs input output w w',
  Forall2 (tamely_means Z.add) ops fs /\ ready ex_c ex_m input output w /\ a_addr input = a_addr output
  /\ composition_direct ex_c ex_m ops true input output w = Ok w'
  /\ bheap w' (a_addr output) <> compose fs (bheap w (a_addr input)).
Proof.
  exists [ex_op true false 2 (Z.add 1); ex_op false false 2 (Z.mul 2)], [Z.add 1; Z.mul 2], (ex_arr 5000 2), (ex_arr 5000 2),
    (ex_w ex_pool). eexists. split; [all2 ex_tame|]. split; [apply ex_pool_ready; cbn; lia|].
  split; [reflexivity|]. split; [apply is_ok; vm_compute; reflexivity|]. vm_compute. discriminate.
Qed.
Print Assumptions C13_inplace_call_refuted.

Definition product_op (n : Z) (ops : list (operand Z)) : operand Z :=
  {| p_inplace := true; p_update := false; p_al_in := false; p_al_out := false; p_ct_in := false; p_ct_out := false;
     p_shape := [n]; p_item := 8; p_exec := fun _ => composition_direct ex_c ex_m ops true |}.

(** Finding: the same happens with distinct input and output if the input has to be converted: it is converted in the
    output, with which the product is then called in place. *)
Theorem C13_call_converted_input_refuted : exists ops fs x out w w',
  Forall2 (tamely_means Z.add) ops fs /\ ready ex_c ex_m x out w /\ a_addr x <> a_addr out
  /\ call ex_c ex_m (fun v => v) (product_op 2 ops) false 8 true x out w = Ok w'
  /\ bheap w' (a_addr out) <> compose fs (bheap w (a_addr x)).
Proof.
  exists [ex_op true false 2 (Z.add 1); ex_op false false 2 (Z.mul 2)], [Z.add 1; Z.mul 2], (ex_arr 5000 2), (ex_arr 6000 2),
    (ex_w ex_pool). eexists. split; [all2 ex_tame|]. split; [apply ex_pool_ready; cbn; lia|].
  split; [cbn; lia|]. split; [apply is_ok; vm_compute; reflexivity|]. vm_compute. discriminate.
Qed.
Print Assumptions C13_call_converted_input_refuted.

Definition ex_sum2 : list (operand Z) := [ex_op true false 1 (Z.mul 2); ex_op true false 1 (Z.mul 3); ex_op true true 1 (Z.add 1)].
Definition ex_sum2_fs : list (Z -> Z) := [Z.mul 2; Z.mul 3; Z.add 1].

(** Finding: the output is lent to the pool while it is the input of an operand, here a sum, which takes it for its
    temporary. *)
Theorem C13_nested_operand_refuted : exists ops fs input output w w',
  Forall2 (means ex_c ex_m Z.add) ops fs /\ ready ex_c ex_m input output w /\ a_addr input <> a_addr output
  /\ composition_direct ex_c ex_m ops true input output w = Ok w'
  /\ bheap w' (a_addr output) <> compose fs (bheap w (a_addr input)).
Proof.
  exists [ex_op false false 1 (Z.add 1); sum_op 1 ex_sum2; ex_op false false 1 (Z.mul 2)],
    [Z.add 1; reduce Z.add ex_sum2_fs; Z.mul 2], (ex_arr 5000 1), (ex_arr 6000 1), (ex_w []). eexists.
  split. { repeat apply Forall2_cons; try apply Forall2_nil; try apply ex_means. apply ex_sum_means. all2 ex_means. }
  split; [apply ex_nil_ready; cbn; lia|]. split; [cbn; lia|]. split; [apply is_ok; vm_compute; reflexivity|]. vm_compute. discriminate.
Qed.
Print Assumptions C13_nested_operand_refuted.

(** Finding: with a reduction, the output is lent to the pool although its contents are needed. *)
Theorem C13_update_lent_refuted : exists op ops fs input output w w',
  Forall2 (means ex_c ex_m Z.add) (op :: ops) fs /\ ready ex_c ex_m input output w /\ a_addr input <> a_addr output
  /\ p_update op = true /\ p_inplace op = false
  /\ composition_direct ex_c ex_m (op :: ops) false input output w = Ok w'
  /\ bheap w' (a_addr output) <> bheap w (a_addr output) + compose fs (bheap w (a_addr input)).
Proof.
  exists (ex_op false true 1 (Z.add 1)), [sum_op 1 ex_sum2], [Z.add 1; reduce Z.add ex_sum2_fs],
    (ex_arr 5000 1), (ex_arr 6000 1), (ex_w []). eexists.
  split. { repeat apply Forall2_cons; try apply Forall2_nil; try apply ex_means. apply ex_sum_means. all2 ex_means. }
  split; [apply ex_nil_ready; cbn; lia|]. split; [cbn; lia|]. split; [reflexivity|]. split; [reflexivity|].
  split; [apply is_ok; vm_compute; reflexivity|]. vm_compute. discriminate.
Qed.
Print Assumptions C13_update_lent_refuted.

(** Finding: an in-place first operand that can update its output makes the product claim that it can, but the
    reduction is ignored. *)
Theorem C13_update_inplace_refuted : exists op ops fs input output w w',
  Forall2 (tamely_means Z.add) (op :: ops) fs /\ ready ex_c ex_m input output w /\ a_addr input <> a_addr output
  /\ p_update op = true
  /\ composition_direct ex_c ex_m (op :: ops) false input output w = Ok w'
  /\ bheap w' (a_addr output) <> bheap w (a_addr output) + compose fs (bheap w (a_addr input)).
Proof.
  exists (ex_op true true 1 (Z.add 1)), [ex_op false false 1 (Z.mul 2)], [Z.add 1; Z.mul 2],
    (ex_arr 5000 1), (ex_arr 6000 1), (ex_w ex_pool). eexists.
  split; [all2 ex_tame|].
  split; [apply ex_pool_ready; cbn; lia|]. split; [cbn; lia|]. split; [reflexivity|].
  split; [apply is_ok; vm_compute; reflexivity|]. vm_compute. discriminate.
Qed.
Print Assumptions C13_update_inplace_refuted.

(** Finding: an in-place call of a product of in-place operators fails when an intermediate result is larger than the
    input and the output. *)
Theorem C13_inplace_sizes_refuted : exists ops input output w,
  Forall (reliable Z.add) ops /\ Forall (fun p => p_inplace p = true) ops /\ ready ex_c ex_m input output w
  /\ a_addr input = a_addr output /\ contigs (bpool w) /\ nbytes output = p_size (hd (ex_op true true 0 (fun x => x)) ops)
  /\ composition_direct ex_c ex_m ops true input output w = Raise ValueError.
Proof.
  exists [ex_op true false 1 (Z.add 1); ex_op true false 2 (Z.mul 2); ex_op true false 1 (Z.add 1)], (ex_arr 5000 1),
    (ex_arr 5000 1), (ex_w ex_pool).
  split; [repeat (apply Forall_cons; [apply ex_reliable; lia|]); apply Forall_nil|]. split; [repeat constructor|].
  split; [apply ex_pool_ready; cbn; lia|]. split; [reflexivity|]. split; [repeat constructor|]. split; reflexivity.
Qed.
Print Assumptions C13_inplace_sizes_refuted.

(** Finding: a call with a reduction and a misaligned output: the reduction is done in an uninitialised temporary,
    which is then copied to the output. *)
Theorem C13_call_update_refuted : exists op f x out w w',
  means ex_c ex_m Z.add op f /\ p_update op = true /\ ready ex_c ex_m x out w /\ a_addr x <> a_addr out
  /\ call ex_c ex_m (fun v => v) op true 8 false x out w = Ok w'
  /\ bheap w' (a_addr out) <> bheap w (a_addr out) + f (bheap w (a_addr x)).
Proof.
  exists ex_al, (Z.mul 2), (ex_arr 5024 2), (ex_arr 6008 2), (ex_w ex_pool). eexists.
  split; [exact (ex_means false true 2 (Z.mul 2))|]. split; [reflexivity|]. split; [apply ex_pool_ready; cbn; lia|].
  split; [cbn; lia|]. split; [apply is_ok; vm_compute; reflexivity|]. vm_compute. discriminate.
Qed.
Print Assumptions C13_call_update_refuted.
