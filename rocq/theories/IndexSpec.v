(** What packing and index conversions should be. *)
From Verif Require Import Base Algebra IndexModel.

(** The elements of x where the mask is True, in order. *)
Definition kept {A} (d : A) (data : list bool) (x : list A) : list A :=
  map (fun i => nth i x d) (filter (fun i => nth i data false) (seq 0 (length data))).
(** The rank of position i among the True ones. *)
Definition rank (data : list bool) (i : nat) : nat := ntrue (firstn i data).

(** All the multi-indices of an array of the given shape, as visited by nested loops, the first index being the
    outermost loop (row-major) or the innermost one (column-major). *)
Definition range (n : Z) : list Z := map Z.of_nat (seq 0 (Z.to_nat n)).
Fixpoint loops (shape : list Z) : list (list Z) :=
  match shape with
  | [] => [[]]
  | n :: s => flat_map (fun i => map (cons i) (loops s)) (range n)
  end.
Definition visit (o : order) (shape : list Z) : list (list Z) :=
  match o with OrderC => loops shape | OrderF => map (@rev Z) (loops (rev shape)) end.

(** A valid multi-index. *)
Definition valid (shape idx : list Z) : Prop := Forall2 (fun n i => 0 <= i < n)%Z shape idx.
Definition size (shape : list Z) : Z := fold_right Z.mul 1%Z shape.
Definition positive (shape : list Z) : Prop := Forall (fun n => 0 < n)%Z shape.
