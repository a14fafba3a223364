(** Independent vocabulary for C13 and C14: what it means for the method direct of an operator to compute a function
    of its input without damaging any other array. *)
From Verif Require Import Base MemoryModel MemorySpec BufferModel.
Open Scope Z_scope.

(** [a] is the address of an array obtained from the n-th allocation. *)
Definition fresh_addr (c : config) (malloc : nat -> Z) (n : nat) (a : Z) : Prop :=
  exists shape item, a = a_addr (empty c shape item (malloc n)).

(** Two allocations never give the same address. *)
Definition alloc_ok (c : config) (malloc : nat -> Z) : Prop :=
  forall n m a, fresh_addr c malloc n a -> fresh_addr c malloc m a -> n = m.

(** [a] is not an address that a future allocation will return: every existing array is [old]. *)
Definition old {V} (c : config) (malloc : nat -> Z) (w : world V) (a : Z) : Prop :=
  forall n, (bn w <= n)%nat -> ~ fresh_addr c malloc n a.

Definition addrs (p : pool) : list Z := map a_addr p.
Definition in_pool {V} (w : world V) (a : Z) : Prop := In a (addrs (bpool w)).

(** The pool is sorted, without duplicates, and holds existing arrays. *)
Definition world_ok {V} (c : config) (malloc : nat -> Z) (w : world V) : Prop :=
  pool_inv (bpool w) /\ Forall (old c malloc w) (addrs (bpool w)).

(** The pool holds afterwards the arrays it held before, and some that were allocated in between. *)
Definition pool_kept {V} (c : config) (malloc : nat -> Z) (w w' : world V) : Prop :=
  (bn w <= bn w')%nat
  /\ exists news, Permutation (bpool w') (bpool w ++ news)
       /\ Forall (fun b => exists n, (bn w <= n < bn w')%nat /\ fresh_addr c malloc n (a_addr b)) news.

(** Every existing array that is neither the output nor in the pool is unchanged. *)
Definition others_kept {V} (c : config) (malloc : nat -> Z) (o : Z) (w w' : world V) : Prop :=
  forall a, old c malloc w a -> ~ in_pool w a -> a <> o -> bheap w' a = bheap w a.

(** [run] computes [g (contents of the output) (f (contents of the input))] in the output, may use the arrays of the
    pool as temporaries and may allocate some; [inplace]: also when the input is the output.  For the plain call, [g]
    is [assign]: the previous contents of the output are lost. *)
Definition assign {V} (x y : V) : V := y.

(** The input and the output are existing arrays that are not in the pool. *)
Definition ready {V} (c : config) (malloc : nat -> Z) (i o : arr) (w : world V) : Prop :=
  world_ok c malloc w /\ old c malloc w (a_addr i) /\ old c malloc w (a_addr o)
  /\ ~ in_pool w (a_addr i) /\ ~ in_pool w (a_addr o).

Definition computed {V} (c : config) (malloc : nat -> Z) (g : V -> V -> V) (f : V -> V) (i o : arr) (w w' : world V) : Prop :=
  world_ok c malloc w' /\ pool_kept c malloc w w' /\ others_kept c malloc (a_addr o) w w'
  /\ bheap w' (a_addr o) = g (bheap w (a_addr o)) (f (bheap w (a_addr i))).

Definition behaves {V} (c : config) (malloc : nat -> Z) (run : arr -> arr -> world V -> result (world V))
    (inplace : bool) (g : V -> V -> V) (f : V -> V) : Prop :=
  forall i o w w', run i o w = Ok w' -> ready c malloc i o w -> a_addr i <> a_addr o \/ inplace = true ->
    computed c malloc g f i o w w'.

(** The same for an operator that does not use the pool, such as all those written with numpy functions only: then
    nothing is required of the pool. *)
Definition tame {V} (run : arr -> arr -> world V -> result (world V)) (inplace : bool) (g : V -> V -> V) (f : V -> V)
    : Prop :=
  forall i o w w', run i o w = Ok w' ->
    bpool w' = bpool w /\ bn w' = bn w
    /\ (forall a, a <> a_addr o -> bheap w' a = bheap w a)
    /\ (a_addr i <> a_addr o \/ inplace = true -> bheap w' (a_addr o) = g (bheap w (a_addr o)) (f (bheap w (a_addr i)))).

(** The operator [op] stands for the function [f]; if its flag update_output is set, it can also combine with [oper]
    the value of f with the contents of the output. *)
Definition means {V} (c : config) (malloc : nat -> Z) (oper : V -> V -> V) (op : operand V) (f : V -> V) : Prop :=
  behaves c malloc (p_exec op false) (p_inplace op) assign f
  /\ (p_update op = true -> behaves c malloc (p_exec op true) (p_inplace op) oper f).

Definition tamely_means {V} (oper : V -> V -> V) (op : operand V) (f : V -> V) : Prop :=
  tame (p_exec op false) (p_inplace op) assign f
  /\ (p_update op = true -> tame (p_exec op true) (p_inplace op) oper f).

(** An operator that does not use the pool and raises no exception. *)
Definition reliable {V} (oper : V -> V -> V) (op : operand V) : Prop :=
  (exists f, tamely_means oper op f) /\ (forall u i o w, exists w', p_exec op u i o w = Ok w') /\ 0 <= p_size op.

Definition contigs (l : list arr) : Prop := Forall (fun b => a_contig b = true) l.

(** A1(A2(...(x))) *)
Definition compose {V} (fs : list (V -> V)) (x : V) : V := fold_right (fun f y => f y) x fs.

(** f1(x) + f2(x) + ... for the operation [oper]; [x] alone is not used for an empty list. *)
Definition reduce {V} (oper : V -> V -> V) (fs : list (V -> V)) (x : V) : V :=
  match fs with [] => x | f :: fs' => fold_left (fun acc f => oper acc (f x)) fs' (f x) end.

(** The number of buffers, input included, through which a call goes: one plus the number of steps whose result is
    written in an array different from the one they read. *)
Definition nbuffers {V} (c : config) (ops : list (operand V)) (i o : arr) : nat :=
  match get_groups c ops i o (negb (isalias i o)) with Ok gs => length gs | Raise _ => 0 end.

(** A leaf operator: it writes [f] of its input in its output and touches nothing else. *)
Definition leaf {V} (f : V -> V) (oper : V -> V -> V) : bool -> arr -> arr -> world V -> result (world V) :=
  fun upd i o w =>
    Ok (write w (a_addr o)
          (if upd then oper (bheap w (a_addr o)) (f (bheap w (a_addr i))) else f (bheap w (a_addr i)))).
