(** Work splitting: utils/misc.py [split] and the MPI shape helpers of utils/mpi.py. *)
From Verif Require Import Base.
Open Scope Z_scope.

(** A Python slice [slice(start, stop)] (step None). *)
Definition slice := (Z * Z)%type.

(** Python [bool] used as an integer, as in [n // m + ((n % m) > rank)]. *)
Definition b2z (b : bool) : Z := if b then 1 else 0.

(** The amount of work of a rank. utils/misc.py 891 and 899, utils/mpi.py 85, 127, 161. *)
Definition work (n m rank : Z) : Z := n / m + b2z (rank <? n mod m).

(** split(n, m, rank), utils/misc.py 890-893. [//] and [%] by zero raise ZeroDivisionError. *)
Definition split_rank (n m rank : Z) : result slice :=
  if m =? 0 then Raise ZeroDivisionError
  else
    let w := work n m rank in
    let start := n / m * rank + Z.min rank (n mod m) in
    Ok (start, start + w).

(** split(n, m), utils/misc.py 895-904: the generator.  [k] is the number of remaining turns of the while loop. *)
Fixpoint split_loop (k : nat) (n m rank start : Z) : list slice :=
  match k with
  | O => []
  | S k' =>
      let w := work n m rank in
      (start, start + w) :: split_loop k' n m (rank + 1) (start + w)
  end.

(** The loop [while rank < m] starting with rank = 0 makes max(m, 0) turns. *)
Definition split_all (n m : Z) : list slice := split_loop (Z.to_nat m) n m 0 0.

(** A shape is a Python tuple of ints. *)
Definition shape := list Z.

(** distribute_shape(shape, rank, size), utils/mpi.py 106-128 (rank and size resolved from the communicator). *)
Definition distribute_shape (sh : shape) (rank size : Z) : result shape :=
  match sh with
  | [] => if 1 <? size then Raise ValueError else Ok []
  | nglobal :: tl =>
      if size =? 0 then Raise ZeroDivisionError
      else Ok (work nglobal size rank :: tl)
  end.

(** distribute_shapes(shape, comm), utils/mpi.py 131-145. [k * (s,)] with k <= 0 is the empty tuple. *)
Definition distribute_shapes (sh : shape) (size : Z) : result (list shape) :=
  match sh with
  | [] => Raise IndexError
  | nglobal :: tl =>
      if size =? 0 then Raise ZeroDivisionError
      else
        let shape_first := (nglobal / size + 1) :: tl in
        let shape_last := (nglobal / size) :: tl in
        let nfirst := nglobal mod size in
        Ok (repeat shape_first (Z.to_nat nfirst) ++ repeat shape_last (Z.to_nat (size - nfirst)))
  end.

(** distribute_slice(nglobal, rank, size), utils/mpi.py 148-164. *)
Definition distribute_slice (nglobal rank size : Z) : result slice :=
  if size =? 0 then Raise ZeroDivisionError
  else
    let nlocal := work nglobal size rank in
    let start := nglobal / size * rank + Z.min rank (nglobal mod size) in
    Ok (start, start + nlocal).

(** distribute(n, comm) for a scalar n, utils/mpi.py 84-85. *)
Definition distribute (n rank size : Z) : result Z :=
  if size =? 0 then Raise ZeroDivisionError else Ok (work n size rank).

Fixpoint zlist_eqb (a b : list Z) : bool :=
  match a, b with
  | [], [] => true
  | x :: a', y :: b' => (x =? y) && zlist_eqb a' b'
  | _, _ => false
  end.

Definition zsum (l : list Z) : Z := fold_left Z.add l 0.

(** combine_shape, utils/mpi.py 91-103.  [shapes] is the result of comm.allgather (line 100).  A communicator has at
    least one process so [shapes] = [] does not occur ([shapes[0]] would raise IndexError at line 103).
    [s[0]] on an empty tuple raises IndexError. *)
Definition combine_shape (shapes : list shape) : result shape :=
  match shapes with
  | [] => Raise IndexError
  | s0 :: _ =>
      if existsb (fun s => negb (Nat.eqb (length s) (length s0)) || negb (zlist_eqb (tl s) (tl s0))) shapes
      then Raise ValueError
      else
        heads <- rmap (fun s => match s with [] => Raise IndexError | x :: _ => Ok x end) shapes ;;
        Ok (zsum heads :: tl s0)
  end.

(** ** MPIDistributionGlobalOperator, operators_mpi.py 14-90

    The communicator is represented by its size; an SPMD run is the list of what each rank does.  An array of shape
    [n :: tl] is the flat list (C order) of its [n * rowsize] elements, [rowsize] the product of [tl]. *)

Definition zprod (l : list Z) : Z := fold_left Z.mul l 1.

(** operators_mpi.py 56-62: the loop computing [counts] and [offsets] (before [offsets.pop()]). *)
Fixpoint counts_offsets (sl : list slice) (rowsize last : Z) : list Z * list Z :=
  match sl with
  | [] => ([], [])
  | (a, b) :: sl' =>
      let n := (b - a) * rowsize in
      let '(cs, os) := counts_offsets sl' rowsize (last + n) in
      (n :: cs, (last + n) :: os)
  end.

(** [offsets = [0]] ... [offsets.pop()]: the leading 0 is kept and the last entry removed. *)
Definition global_counts_offsets (sh : shape) (size : Z) : result (list Z * list Z) :=
  match sh with
  | [] => Raise IndexError
  | n :: tl =>
      let '(cs, os) := counts_offsets (split_all n size) (zprod tl) 0 in
      Ok (cs, removelast (0 :: os))
  end.

(** [input[start:stop]] along the first axis of a flat C-ordered array (0 <= start <= stop <= n). *)
Definition rows {A} (x : list A) (rowsize : Z) (s : slice) : list A :=
  firstn (Z.to_nat ((snd s - fst s) * rowsize)) (skipn (Z.to_nat (fst s * rowsize)) x).

(** direct on one rank, operators_mpi.py 75-76; the slice is the one of line 54. *)
Definition global_direct {A} (sh : shape) (size rank : Z) (x : list A) : result (list A) :=
  match sh with
  | [] => Raise IndexError
  | n :: tl => s <- split_rank n size rank ;; Ok (rows x (zprod tl) s)
  end.

(** Write [v] at position [o] of [out]. *)
Definition blit {A} (out : list A) (o : nat) (v : list A) : list A :=
  firstn o out ++ v ++ skipn (o + length v) out.

(** MPI Allgatherv on elements (the code calls it on bytes with all counts and offsets multiplied by the item size):
    rank r's contribution, which must have counts[r] elements, is written at offsets[r]. *)
Fixpoint allgatherv {A} (contribs : list (list A)) (counts offsets : list Z) (out : list A) : result (list A) :=
  match contribs, counts, offsets with
  | [], [], [] => Ok out
  | v :: vs, c :: cs, o :: os =>
      if Z.of_nat (length v) =? c
      then allgatherv vs cs os (blit out (Z.to_nat o) v)
      else Raise RuntimeError
  | _, _, _ => Raise RuntimeError
  end.

(** transpose, operators_mpi.py 78-92: [locals] are the inputs of all the ranks, [out] the array to be filled. *)
Definition global_transpose {A} (sh : shape) (size : Z) (locals : list (list A)) (out : list A) : result (list A) :=
  co <- global_counts_offsets sh size ;; allgatherv locals (fst co) (snd co) out.
