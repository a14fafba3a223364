(** What reshaping an array means: the same elements, in the same order.  Arrays are described by the address of each element, given its
    indices. *)
From Verif Require Import Base.
Local Open Scope Z_scope.

(** The indices of an array, in C order: the last one varies the fastest *)
Fixpoint indices (shape : list nat) : list (list nat) :=
  match shape with
  | [] => [[]]
  | n :: shape => flat_map (fun i => map (cons i) (indices shape)) (seq 0 n)
  end.
(** The address of the element with given indices *)
Fixpoint address (offset : Z) (strides : list Z) (index : list nat) : Z :=
  match strides, index with
  | s :: strides, i :: index => address (offset + Z.of_nat i * s) strides index
  | _, _ => offset
  end.
(** The elements of the array that starts at [offset], in C order *)
Definition in_order {V : Type} (m : Z -> V) (offset : Z) (shape : list nat) (strides : list Z) : list V :=
  map (fun index => m (address offset strides index)) (indices shape).
(** The addresses that belong to the array *)
Definition belongs (p : Z) (offset : Z) (shape : list nat) (strides : list Z) : Prop :=
  exists index, In index (indices shape) /\ p = address offset strides index.
(** The rank of an element in C order *)
Fixpoint rank (shape index : list nat) : nat :=
  match shape, index with
  | _ :: shape, i :: index => (i * fold_right Nat.mul 1 shape + rank shape index)%nat
  | _, _ => 0%nat
  end.
(** The elements of the array are one after the other in memory. *)
Definition packed_array (offset : Z) (shape : list nat) (strides : list Z) : Prop :=
  forall index, In index (indices shape) -> address offset strides index = offset + Z.of_nat (rank shape index).
