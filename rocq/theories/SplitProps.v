(** Property theorems C01 and C02. *)
From Verif Require Import Base SplitModel SplitSpec SplitProofs.
Open Scope Z_scope.

(** C01: split(n, m) yields m consecutive slices from 0 to n covering each index once and in order, balanced with
    the longer ones first; split(n, m, r) is the r-th of them. *)
Theorem C01_split_partition : forall n m, 0 <= n -> 0 < m ->
  length (split_all n m) = Z.to_nat m
  /\ chain 0 n (split_all n m)
  /\ concat (map (fun s => interval (fst s) (snd s)) (split_all n m)) = interval 0 n
  /\ balanced (split_all n m)
  /\ (forall r, 0 <= r < m -> exists s, split_rank n m r = Ok s /\ nth_error (split_all n m) (Z.to_nat r) = Some s).
Proof. exact split_full. Qed.
Print Assumptions C01_split_partition.

Example C01_witness : split_all 11 4 = [(0, 3); (3, 6); (6, 9); (9, 11)] /\ 0 <= 11 /\ 0 < 4.
Proof. repeat split; discriminate. Qed.

(** C01, degenerate numbers of groups. *)
Theorem C01_split_no_group : forall n r,
  split_rank n 0 r = Raise ZeroDivisionError /\ (forall m, m <= 0 -> split_all n m = []).
Proof. exact split_errors. Qed.
Print Assumptions C01_split_no_group.

(** C02: on every rank, distribute_shape, distribute_shapes, distribute_slice, distribute and split agree. *)
Theorem C02_distribute_agree : forall n tl size r, 0 <= n -> 0 < size -> 0 <= r < size ->
  exists l s e,
    distribute_shapes (n :: tl) size = Ok l
    /\ length l = Z.to_nat size
    /\ nth_error (split_all n size) (Z.to_nat r) = Some (s, e)
    /\ distribute_slice n r size = Ok (s, e)
    /\ distribute n r size = Ok (e - s)
    /\ distribute_shape (n :: tl) r size = Ok ((e - s) :: tl)
    /\ nth_error l (Z.to_nat r) = Some ((e - s) :: tl).
Proof. exact distribute_agree. Qed.
Print Assumptions C02_distribute_agree.

Example C02_agree_witness :
  distribute_shape [11; 3] 3 4 = Ok [2; 3] /\ distribute_shapes [11; 3] 4 = Ok [[3; 3]; [3; 3]; [3; 3]; [2; 3]].
Proof. split; reflexivity. Qed.

(** C02: stacking the local arrays of all the ranks gives the global shape back. *)
Theorem C02_distribute_combine : forall n tl size, 0 < size ->
  exists locals,
    rmap (fun r => distribute_shape (n :: tl) (Z.of_nat r) size) (seq 0 (Z.to_nat size)) = Ok locals
    /\ combine_shape locals = Ok (n :: tl).
Proof. exact distribute_combine. Qed.
Print Assumptions C02_distribute_combine.

Example C02_combine_witness : combine_shape [[3; 5]; [3; 5]; [2; 5]] = Ok [8; 5].
Proof. reflexivity. Qed.

(** C02: combine_shape succeeds exactly on local shapes that differ at most by their first dimension, and returns
    the sum of the first dimensions followed by the common ones. *)
Theorem C02_combine_shape_iff : forall shapes r, combine_shape shapes = Ok r <->
  exists heads tl, heads <> [] /\ shapes = map (fun h => h :: tl) heads /\ r = zsum heads :: tl.
Proof. exact combine_shape_ok. Qed.
Print Assumptions C02_combine_shape_iff.

(** C02: non-scalar local shapes are rejected with a ValueError only when two of them disagree. *)
Theorem C02_combine_shape_error : forall shapes, shapes <> [] -> ~ In [] shapes ->
  (exists r, combine_shape shapes = Ok r) \/
  (combine_shape shapes = Raise ValueError
   /\ exists s s', In s shapes /\ In s' shapes /\ tl s <> tl s').
Proof. exact combine_shape_error. Qed.
Print Assumptions C02_combine_shape_error.

Example C02_error_witness : combine_shape [[3; 5]; [3; 4]] = Raise ValueError.
Proof. reflexivity. Qed.

(** C02: a scalar cannot be distributed over several processes. *)
Theorem C02_distribute_scalar : forall rank size,
  (1 < size -> distribute_shape [] rank size = Raise ValueError)
  /\ (size = 1 -> distribute_shape [] rank size = Ok []).
Proof. exact distribute_scalar. Qed.
Print Assumptions C02_distribute_scalar.

(** C02: the distribution operator sends to each rank a piece of the global array, the pieces are consecutive and
    cover it, and its transpose (a gather) rebuilds the global array on every rank, whatever the output held. *)
Theorem C02_distribute_gather : forall (A : Type) n tl size (x out : list A),
  0 <= n -> 0 < size -> Forall (fun d => 0 <= d) tl ->
  Z.of_nat (length x) = n * zprod tl -> length out = length x ->
  exists locals,
    rmap (fun r => global_direct (n :: tl) size (Z.of_nat r) x) (seq 0 (Z.to_nat size)) = Ok locals
    /\ global_transpose (n :: tl) size locals out = Ok x
    /\ concat locals = x.
Proof. exact @distribute_gather. Qed.
Print Assumptions C02_distribute_gather.

Example C02_gather_witness :
  global_direct [3; 2] 2 0 [1; 2; 3; 4; 5; 6] = Ok [1; 2; 3; 4]
  /\ global_direct [3; 2] 2 1 [1; 2; 3; 4; 5; 6] = Ok [5; 6]
  /\ global_transpose [3; 2] 2 [[1; 2; 3; 4]; [5; 6]] [0; 0; 0; 0; 0; 0] = Ok [1; 2; 3; 4; 5; 6].
Proof. repeat split; reflexivity. Qed.
