(** Independent vocabulary for the comparison of results. *)
From Coq Require Import QArith Qabs Qminmax String.
From Verif Require Import Base SeqSpec BlockModel BlockSpec DiagModel DiagSpec DenseSpec CmpModel.
Open Scope nat_scope.
Open Scope list_scope.

(** ** assert_same *)

(** Numbers that are equal within tolerances. *)
Definition near (rel abs : Q) (a d : fnum) : Prop :=
  match a, d with
  | Fin p, Fin q => (Qabs (p - q) <= rel * Qmin (Qabs p) (Qabs q) + abs \/ p == q)%Q
  | Inf s, Inf t => s = t
  | NaN, NaN => True
  | _, _ => False
  end.
Definition opposite (a d : fnum) : Prop := match a, d with Inf s, Inf t => s <> t | _, _ => False end.
Definition numeric (x : narray) : Prop := n_dtype x <> NotNumeric.
(** The tolerance for a given number of eps: eps is the one of the least precise of the floating-point types, and integers are
    compared exactly. *)
Definition unit_of (x y : narray) (u : Q) : Prop :=
  match n_dtype x, n_dtype y with
  | Float p, Float q => u = Qmax (eps p) (eps q)
  | Float p, _ | _, Float p => u = eps p
  | _, _ => u = 0%Q
  end.
(** All the elements that face each other are related. *)
Definition pairwise {A B} (R : A -> B -> Prop) (x : array A) (y : array B) : Prop :=
  ashape x = ashape y /\ forall idx, inside (ashape x) idx -> R (aval x idx) (aval y idx).
(** The same, when the arrays are stretched to a common shape. *)
Definition stretched_pairwise {A B} (R : A -> B -> Prop) (x : array A) (y : array B) : Prop :=
  exists s, common (ashape x) (ashape y) s /\
  forall idx, inside s idx -> R (aval x (facing Leftward (ashape x) idx)) (aval y (facing Leftward (ashape y) idx)).
(** The numbers of an array of integers are integers, hence finite. *)
Definition well_typed (x : narray) : Prop :=
  n_dtype x = Integer -> forall idx, inside (ashape (n_arr x)) idx -> exists z : Z, aval (n_arr x) idx = Fin (inject_Z z).

(** ** assert_eq *)

(** Equal within one part in ten millions of the second one. *)
Definition agrees (a b : fnum) : Prop :=
  match a, b with
  | Fin p, Fin q => (Qabs (p - q) * inject_Z (10 ^ 7) <= Qabs q)%Q
  | Inf s, Inf t => s = t
  | NaN, NaN => True
  | _, _ => False
  end.
(** Nested lists and tuples of numbers as an array: their shape, and the number found by following an index. *)
Inductive shaped : pyval -> list nat -> Prop :=
| shaped_num x : shaped (VNum x) []
| shaped_arr a : shaped (VArr a) (ashape a)
| shaped_list l s : Forall (fun v => shaped v s) l -> l <> [] -> shaped (VList l) (List.length l :: s)
| shaped_tuple l s : Forall (fun v => shaped v s) l -> l <> [] -> shaped (VTuple l) (List.length l :: s)
| shaped_nil : shaped (VList []) [0]
| shaped_unit : shaped (VTuple []) [0].
Inductive found : pyval -> list nat -> fnum -> Prop :=
| found_num x : found (VNum x) [] x
| found_arr a idx : found (VArr a) idx (aval a idx)
| found_list l i v idx x : nth_error l i = Some v -> found v idx x -> found (VList l) (i :: idx) x
| found_tuple l i v idx x : nth_error l i = Some v -> found v idx x -> found (VTuple l) (i :: idx) x.
(** The same arrays of numbers; a number alone stands for all the elements of an array. *)
Definition same_numbers (a b : pyval) : Prop :=
  exists s t, shaped a s /\ shaped b t /\ (s = t \/ s = [] \/ t = []) /\
  forall idx x y, inside (match s with [] => t | _ => s end) idx ->
    found a (match s with [] => [] | _ => idx end) x -> found b (match t with [] => [] | _ => idx end) y -> agrees x y.
Definition sequence (v : pyval) (l : list pyval) : Prop := v = VList l \/ v = VTuple l.
Definition number_like (v : pyval) : Prop := (exists x, v = VNum x) \/ (exists a, v = VArr a).
(** Equal values: numbers and arrays of numbers (an array also equals a nested list of its elements), texts, sets and
    frozensets that have the same elements, lists and tuples whose elements are equal, dictionaries that have the same keys
    and equal values. *)
Inductive same_value : pyval -> pyval -> Prop :=
| same_none : same_value VNone VNone
| same_obj i : same_value (VObj i) (VObj i)
| same_str s : same_value (VStr s) (VStr s)
| same_num a b : number_like a -> number_like b -> same_numbers a b -> same_value a b
| same_arr_seq a b l : sequence b l -> same_numbers (VArr a) b -> same_value (VArr a) b
| same_seq_arr a b l : sequence a l -> same_numbers a (VArr b) -> same_value a (VArr b)
| same_sets a b l m : (a = VSet l \/ a = VFrozen l) -> (b = VSet m \/ b = VFrozen m) -> (forall s, In s l <-> In s m) -> same_value a b
| same_seq a b l m : sequence a l -> sequence b m -> Forall2 same_value l m -> same_value a b
| same_dict l m : (forall k, In k (map fst l) <-> In k (map fst m)) ->
    (forall k v w, In (k, v) l -> In (k, w) m -> same_value v w) -> same_value (VDict l) (VDict m).
(** The keys of a dictionary are distinct. *)
Inductive wf : pyval -> Prop :=
| wf_leaf v : match v with VList _ | VTuple _ | VDict _ => False | _ => True end -> wf v
| wf_list l : Forall wf l -> wf (VList l)
| wf_tuple l : Forall wf l -> wf (VTuple l)
| wf_dict l : NoDup (map fst l) -> Forall (fun kv => wf (snd kv)) l -> wf (VDict l).
(** Nowhere does a dictionary face a list or a tuple, nor a frozenset a frozenset, a dictionary, a list or a tuple. *)
Inductive regular : pyval -> pyval -> Prop :=
| regular_leaf a b : is_container a = false \/ is_container b = false -> regular a b
| regular_seq a b l m : sequence a l -> sequence b m -> Forall2 regular l m -> regular a b
| regular_length a b l m : sequence a l -> sequence b m -> List.length l <> List.length m -> regular a b
| regular_dict l m : (forall k v w, In (k, v) l -> In (k, w) m -> regular v w) -> regular (VDict l) (VDict m).
