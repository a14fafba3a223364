(** What the shape and sequence helpers should return. *)
From Verif Require Import Base SeqModel.

(** The length of a shape along the k-th axis counted from the last one: the missing axes have length 1. *)
Definition dim (s : list nat) (k : nat) : nat := nth k (rev s) 1.

Definition compatible (shapes : list (list nat)) : Prop :=
  forall s t k, In s shapes -> In t shapes -> dim s k = 1 \/ dim t k = 1 \/ dim s k = dim t k.

(** [r] has as many axes as the shape that has most, and along each axis the length is the one that is not 1. *)
Definition is_broadcast (shapes : list (list nat)) (r : list nat) : Prop :=
  (forall s, In s shapes -> length s <= length r) /\
  (exists s, In s shapes /\ length s = length r) /\
  (forall k, (forall s, In s shapes -> dim s k = 1) /\ dim r k = 1 \/
             exists s, In s shapes /\ dim s k <> 1 /\ dim r k = dim s k).

(** The element of an array of shape [xs] that is broadcast to the index [idx]. *)
Definition broadcast_index (xs idx : list nat) : list nat :=
  map (fun p => if fst p =? 1 then 0 else snd p) (combine xs (skipn (length idx - length xs) idx)).

(** [idx] is a valid index for the shape [shape]. *)
Definition valid_index (shape idx : list nat) : Prop := Forall2 (fun i n => i < n) idx shape.

Section Spec.
Variable A : Type.
Variable eqb : A -> A -> bool.

(** [a] is the first item that satisfies [f], at index [i]. *)
Definition is_first (l : list A) (f : A -> bool) (i : nat) (a : A) : Prop :=
  nth_error l i = Some a /\ f a = true /\ forall j b, j < i -> nth_error l j = Some b -> f b = false.
Definition is_last (l : list A) (f : A -> bool) (i : nat) (a : A) : Prop :=
  nth_error l i = Some a /\ f a = true /\ forall j b, i < j -> nth_error l j = Some b -> f b = false.
Definition no_match (l : list A) (f : A -> bool) : Prop := forall a, In a l -> f a = false.

Definition count (l : list A) (a : A) : nat := length (filter (fun b => eqb b a) l).
Definition all_same (l : list A) : Prop := forall a b, In a l -> In b l -> a = b.

(** The j-th item of an argument of zip_broadcast, None after the end. *)
Definition item (a : zarg A) (j : nat) : option A :=
  match a with
  | NotIterable _ x => Some x
  | Container _ l => match l with [x] => Some x | _ => nth_error l j end
  | Iterator _ l => nth_error l j
  end.

(** An argument that is not repeated. *)
Definition long (a : zarg A) : option nat :=
  match a with
  | NotIterable _ x => None
  | Container _ l => if length l =? 1 then None else Some (length l)
  | Iterator _ l => Some (length l)
  end.
End Spec.
