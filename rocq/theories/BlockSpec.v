(** Independent vocabulary for C16-C19. *)
From Verif Require Import Base Algebra BlockModel.
From Coq Require Export Permutation.

(** [idx] is an index of an array of the given shape. *)
Definition inside (shape idx : list nat) : Prop := Forall2 (fun n i => i < n) shape idx.

(** The same elements at all valid indices. *)
Definition aeq {A} (x y : array A) : Prop :=
  ashape x = ashape y /\ forall idx, inside (ashape x) idx -> aval x idx = aval y idx.

(** All the indices of an array, each once. *)
Fixpoint indices (shape : list nat) : list (list nat) :=
  match shape with
  | [] => [[]]
  | n :: s => flat_map (fun i => map (cons i) (indices s)) (seq 0 n)
  end.

(** The position of an axis, counted from the end when negative, in an array of [ndim] dimensions. *)
Definition position (ax : axis) (ndim : nat) : option nat :=
  let a := axis_value ax in
  let i := if (0 <=? a)%Z then a else (a + Z.of_nat ndim)%Z in
  if (0 <=? i)%Z && (i <? Z.of_nat ndim)%Z then Some (Z.to_nat i) else None.

Definition insert {T} (a : nat) (v : T) (l : list T) : list T := firstn a l ++ v :: skipn a l.
Definition remove_at {T} (a : nat) (l : list T) : list T := firstn a l ++ skipn (S a) l.

(** The piece of an array made of the indices lo, ..., lo+n-1 of the dimension a (for a new axis: the index lo, and
    the dimension is dropped). *)
Definition cut {A} (ax : axis) (a lo n : nat) (x : array A) : array A :=
  match ax with
  | Axis _ => Arr (set_nth (ashape x) a n) (fun idx => aval x (set_nth idx a (lo + nth a idx 0)))
  | NewAxis _ => Arr (remove_at a (ashape x)) (fun idx => aval x (insert a lo idx))
  end.

(** The k-th piece of a partition. *)
Definition offset (p : list nat) (k : nat) : nat := list_sum (firstn k p).
Definition piece {A} (ax : axis) (a : nat) (p : list nat) (k : nat) (x : array A) : array A :=
  cut ax a (offset p k) (nth k p 0) x.

(** [p] is a partition of the dimension of the array, which is at the position [a]. *)
Definition partitioned (ax : axis) (p : list nat) (shape : list nat) (a : nat) : Prop :=
  position ax (length shape) = Some a
  /\ match ax with Axis _ => list_sum p = nth a shape 0 | NewAxis _ => p = repeat 1 (nth a shape 0) end.

(** The indices of the array that x[spec] selects. *)
Definition selected (shape : list nat) (spec : list sel) : list (list nat) :=
  match expand (length shape) spec with
  | Ok sp => match subshape sp shape with Ok sh => map (locate sp) (indices sh) | Raise _ => [] end
  | Raise _ => []
  end.

(** The result of a block only depends on the elements of its input, and has the shape it announces. *)
Definition proper {A} (k : blk A) : Prop :=
  (forall x y, aeq x y -> aeq (k_fun k x) (k_fun k y)) /\ (forall x, ashape (k_fun k x) = k_reshapein k (ashape x)).

(** What the blocks compute from the pieces of the input. *)
Definition block_outputs {A} (ax : axis) (a : nat) (p : list nat) (ks : list (blk A)) (x : array A) : list (array A) :=
  map (fun kb => k_fun (snd kb) (piece ax a p (fst kb) x)) (combine (seq 0 (length ks)) ks).

(** y0 + y1 + ..., element by element *)
Definition total {A} (oper : A -> A -> A) (ys : list (array A)) (idx : list nat) (d : A) : A :=
  match ys with [] => d | y :: ys' => fold_left (fun acc z => oper acc (aval z idx)) ys' (aval y idx) end.

(** The inner product of two arrays. *)
Definition inner {K : cring} (x y : array K) : K := lsum (map (fun idx => rmul (aval x idx) (aval y idx)) (indices (ashape x))).

(** [k'] is the adjoint of [k] for inputs of shape [si] and outputs of shape [so]. *)
Definition adjoint {K : cring} (si so : list nat) (k k' : blk K) : Prop :=
  (forall x, ashape x = si -> ashape (k_fun k x) = so) /\ (forall y, ashape y = so -> ashape (k_fun k' y) = si)
  /\ forall x y, ashape x = si -> ashape y = so -> inner (k_fun k x) y = inner x (k_fun k' y).

(** An operator that acts on each piece of its input separately. *)
Definition acts_piecewise {A} (ax : axis) (a : nat) (p : list nat) (op : blk A) (x : array A) : Prop :=
  ashape (k_fun op x) = ashape x
  /\ forall k, k < length p -> aeq (piece ax a p k (k_fun op x)) (k_fun op (piece ax a p k x)).

(** The declared sizes of the output pieces are right.  They may be missing when the axes are existing ones. *)
Definition announced (axin axout : axis) (pout : list (option nat)) (po : list nat) : Prop :=
  Forall2 (fun o n => o = Some n \/ (o = None /\ exists ai ao, axin = Axis ai /\ axout = Axis ao)) pout po.

(** What it means for a block operator with input pieces [pi] and output pieces [po] to map x to y.
    - block diagonal: each piece of y is the corresponding block applied to the corresponding piece of x;
    - block column: each piece of y is the corresponding block applied to x;
    - block row: y is the sum (for the operation of the operator) of the blocks applied to the pieces of x. *)
Definition acts {A} (q : blockop A) (pi po : list nat) (x y : array A) : Prop :=
  match q_in q, q_out q with
  | Some axin, Some axout =>
      exists ai ao pout, q_pin q = Some (map Some pi) /\ q_pout q = Some pout /\ announced axin axout pout po
      /\ length (q_ops q) = length pi /\ length (q_ops q) = length po
      /\ partitioned axin pi (ashape x) ai /\ partitioned axout po (ashape y) ao
      /\ forall k b, nth_error (q_ops q) k = Some b -> aeq (piece axout ao po k y) (k_fun b (piece axin ai pi k x))
  | None, Some axout =>
      exists ao, q_pin q = None /\ q_pout q = Some (map Some po)
      /\ length (q_ops q) = length po /\ partitioned axout po (ashape y) ao
      /\ forall k b, nth_error (q_ops q) k = Some b -> aeq (piece axout ao po k y) (k_fun b x)
  | Some axin, None =>
      exists ai, q_pin q = Some (map Some pi) /\ q_pout q = None
      /\ q_ops q <> [] /\ length (q_ops q) = length pi /\ partitioned axin pi (ashape x) ai
      /\ (forall k b, nth_error (q_ops q) k = Some b -> ashape (k_fun b (piece axin ai pi k x)) = ashape y)
      /\ forall idx d, inside (ashape y) idx -> aval y idx = total (q_oper q) (block_outputs axin ai pi (q_ops q) x) idx d
  | None, None => False
  end.

(** The element-wise combination of two arrays. *)
Definition both {A} (oper : A -> A -> A) (x y : array A) : array A :=
  Arr (ashape x) (fun idx => oper (aval x idx) (aval y idx)).

(** The shapes that the operator says it has are those of the arrays. *)
Definition shapes_ok {A} (q : blockop A) (x y : array A) : Prop :=
  (forall s, q_shapein q = Some s -> s = ashape x) /\ (forall s, q_shapeout q = Some s -> s = ashape y).

(** element-wise function *)
Definition amap {A} (c : A -> A) (x : array A) : array A := Arr (ashape x) (fun idx => c (aval x idx)).

(** The shape of the k-th piece (of the whole array if there is no partition). *)
Definition piece_shape (ax : option axis) (p : list nat) (k : nat) (shape : list nat) : list nat :=
  match ax with
  | None => shape
  | Some ax =>
      match position ax (length shape) with
      | Some a => match ax with Axis _ => set_nth shape a (nth k p 0) | NewAxis _ => remove_at a shape end
      | None => shape
      end
  end.

(** The blocks [f b] are the adjoints of the blocks b. *)
Definition adjoint_blocks {K : cring} (f : blk K -> blk K) (q : blockop K) (pi po : list nat) (shapein shapeout : list nat) : Prop :=
  forall k b, nth_error (q_ops q) k = Some b ->
    adjoint (piece_shape (q_in q) pi k shapein) (piece_shape (q_out q) po k shapeout) b (f b).

(** The shape and the elements of an array, in the order of the indices. *)
Definition values {A} (r : result (array A)) : option (list nat * list A) :=
  match r with Ok r => Some (ashape r, map (aval r) (indices (ashape r))) | Raise _ => None end.
