(** Properties of the shape and sequence helpers (C28, C29). *)
From Verif Require Import Base SeqModel SeqSpec SeqProofs.
From Coq Require Import Permutation.

(** broadcast_shapes returns r iff the shapes are compatible and r is their broadcast shape. *)
Theorem C28_broadcast_spec (shapes : list (list nat)) (r : list nat) :
  shapes <> [] -> broadcast_shapes shapes = Ok r <-> compatible shapes /\ is_broadcast shapes r.
Proof. exact (broadcast_spec shapes r). Qed.
Print Assumptions C28_broadcast_spec.

(** It raises ValueError exactly when some axis has two different lengths other than one. *)
Theorem C28_broadcast_raises (shapes : list (list nat)) :
  shapes <> [] -> broadcast_shapes shapes = Raise ValueError <-> ~ compatible shapes.
Proof. exact (broadcast_raises_iff shapes). Qed.
Print Assumptions C28_broadcast_raises.

(** The order does not matter... *)
Theorem C28_commutative (l l' : list (list nat)) :
  Permutation l l' -> broadcast_shapes l = broadcast_shapes l'.
Proof. exact (broadcast_permutation l l'). Qed.
Print Assumptions C28_commutative.

(** ... nor does the grouping, also when a group is incompatible. *)
Theorem C28_associative (l1 l2 : list (list nat)) (r1 r2 : list nat) :
  broadcast_shapes l1 = Ok r1 -> broadcast_shapes l2 = Ok r2 ->
  broadcast_shapes (l1 ++ l2) = broadcast_shapes [r1; r2].
Proof. exact (broadcast_grouping l1 l2 r1 r2). Qed.
Print Assumptions C28_associative.

Theorem C28_associative_raises (l1 l2 : list (list nat)) (e : exn) :
  l1 <> [] -> broadcast_shapes l1 = Raise e ->
  broadcast_shapes (l1 ++ l2) = Raise ValueError /\ broadcast_shapes (l2 ++ l1) = Raise ValueError.
Proof. exact (broadcast_grouping_raise l1 l2 e). Qed.
Print Assumptions C28_associative_raises.

Example C28_case :
  broadcast_shapes [[1; 5]; [3; 2; 1]] = Ok [3; 2; 5] /\ broadcast_shapes [[]; [4]] = Ok [4] /\
  broadcast_shapes [[2]; [3]] = Raise ValueError /\ broadcast_shapes [[0]; [1]] = Ok [0].
Proof. auto. Qed.

(** reshape_broadcast returns an array of the requested shape whose elements are those that broadcasting designates,
    within the array... *)
Theorem C28_reshape_elements (x y : strided) (shape : list nat) :
  length (st_shape x) = length (st_strides x) -> reshape_broadcast x shape = Ok y ->
  st_shape y = shape /\ length (st_strides y) = length shape /\
  forall idx, valid_index shape idx ->
    valid_index (st_shape x) (broadcast_index (st_shape x) idx) /\
    address y idx = address x (broadcast_index (st_shape x) idx).
Proof. exact (reshape_ok x shape y). Qed.
Print Assumptions C28_reshape_elements.

(** ... and it succeeds iff the array can be broadcast to that shape. *)
Theorem C28_reshape_iff (x : strided) (shape : list nat) :
  is_ok (reshape_broadcast x shape) = true <-> broadcast_shapes [st_shape x; shape] = Ok shape.
Proof. exact (reshape_iff x shape). Qed.
Print Assumptions C28_reshape_iff.

Example C28_reshape_case :
  reshape_broadcast {| st_base := 0; st_shape := [3; 1]; st_strides := [8; 8]%Z |} [2; 3; 2] =
    Ok {| st_base := 0; st_shape := [2; 3; 2]; st_strides := [0; 8; 0]%Z |} /\ valid_index [2; 3; 2] [1; 2; 1].
Proof. split; [reflexivity|repeat constructor]. Qed.

Section Helpers.
Variable A : Type.
Variable eqb : A -> A -> bool.

(** first/last return the first/last matching item, and raise ValueError exactly when nothing matches. *)
Theorem C29_first (l : list A) (f : A -> bool) :
  match first A l f with
  | Ok a => exists i, is_first A l f i a
  | Raise e => e = ValueError /\ no_match A l f
  end.
Proof. exact (first_spec A l f). Qed.

Theorem C29_last (l : list A) (f : A -> bool) :
  match last_ A l f with
  | Ok a => exists i, is_last A l f i a
  | Raise e => e = ValueError /\ no_match A l f
  end.
Proof. exact (last_spec A l f). Qed.

(** ifirst/ilast (with a function) return its index. *)
Theorem C29_ifirst (l : list A) (f : A -> bool) :
  match ifirst A l f with
  | Ok i => exists a, is_first A l f i a
  | Raise e => e = ValueError /\ no_match A l f
  end.
Proof. exact (ifirst_spec A l f). Qed.

Theorem C29_ilast (l : list A) (f : A -> bool) :
  match ilast A l f with
  | Ok i => exists a, is_last A l f i a
  | Raise e => e = ValueError /\ no_match A l f
  end.
Proof. exact (ilast_spec A l f). Qed.

(** ifirst/ilast with a value, ifirst_is_not/ilast_is_not. *)
Theorem C29_ifirst_value (l : list A) (v : A) :
  (match ifirst_value A eqb l v with
   | Ok i => exists a, is_first A l (fun a => eqb a v) i a
   | Raise e => e = ValueError /\ no_match A l (fun a => eqb a v)
   end) /\
  (match ilast_value A eqb l v with
   | Ok i => exists a, is_last A l (fun a => eqb a v) i a
   | Raise e => e = ValueError /\ no_match A l (fun a => eqb a v)
   end).
Proof. exact (conj (ifirst_spec A l (fun a => eqb a v)) (ilast_spec A l (fun a => eqb a v))). Qed.

Theorem C29_ifirst_is_not (l : list A) (v : A) :
  (match ifirst_is_not A eqb l v with
   | Ok i => exists a, is_first A l (fun a => negb (eqb a v)) i a
   | Raise e => e = ValueError /\ no_match A l (fun a => negb (eqb a v))
   end) /\
  (match ilast_is_not A eqb l v with
   | Ok i => exists a, is_last A l (fun a => negb (eqb a v)) i a
   | Raise e => e = ValueError /\ no_match A l (fun a => negb (eqb a v))
   end).
Proof. exact (conj (ifirst_spec A l (fun a => negb (eqb a v))) (ilast_spec A l (fun a => negb (eqb a v)))). Qed.

(** first_is_not/last_is_not return the first/last item that differs from the value, or the value if all are equal. *)
Theorem C29_first_is_not (l : list A) (v : A) : (forall a b, eqb a b = true <-> a = b) ->
  (exists i, is_first A l (fun a => negb (eqb a v)) i (first_is_not A eqb l v)) \/
  (first_is_not A eqb l v = v /\ forall a, In a l -> a = v).
Proof. exact (fun H => first_is_not_spec A eqb H l v). Qed.

Theorem C29_last_is_not (l : list A) (v : A) : (forall a b, eqb a b = true <-> a = b) ->
  (exists i, is_last A l (fun a => negb (eqb a v)) i (last_is_not A eqb l v)) \/
  (last_is_not A eqb l v = v /\ forall a, In a l -> a = v).
Proof. exact (fun H => last_is_not_spec A eqb H l v). Qed.

(** merge_none takes at each position the value that is not None, and raises ValueError exactly when the lengths
    differ or two values at the same position differ. *)
Theorem C29_merge_none (a b : list (option A)) : (forall a b, eqb a b = true <-> a = b) ->
  match merge_none A eqb (Some a) (Some b) with
  | Ok None => False
  | Ok (Some r) => length a = length b /\ length r = length a /\
      forall i, i < length a ->
        match nth i a None, nth i b None with
        | Some x, Some y => x = y /\ nth i r None = Some x
        | Some x, None => nth i r None = Some x
        | None, q => nth i r None = q
        end
  | Raise e => e = ValueError /\
      (length a <> length b \/ exists i x y, nth i a None = Some x /\ nth i b None = Some y /\ x <> y)
  end.
Proof. exact (fun H => merge_none_spec A eqb H a b). Qed.

(** renumerate enumerates from the end. *)
Theorem C29_renumerate (l : list A) :
  length (renumerate A l) = length l /\
  forall j, j < length l -> nth_error (renumerate A l) j =
    match nth_error l (length l - 1 - j) with Some a => Some (length l - 1 - j, a) | None => None end.
Proof. exact (renumerate_spec A l). Qed.

(** product is the product in any monoid: of one item it is this item, and the product of a concatenation is the
    product of the products. *)
Theorem C29_product (one : A) (mul : A -> A -> A) (l l' : list A) (a : A) :
  (forall a b c, mul (mul a b) c = mul a (mul b c)) -> (forall a, mul one a = a) -> (forall a, mul a one = a) ->
  product_list A one mul [] = one /\ product_list A one mul [a] = a /\
  product_list A one mul (l ++ l') = mul (product_list A one mul l) (product_list A one mul l').
Proof. exact (fun Ha H1 H2 => conj eq_refl (conj (H1 a) (product_app A one mul Ha H1 H2 l l'))). Qed.

(** The j-th tuple of zip_broadcast is made of the j-th items of the arguments, the scalars and containers of length
    one being repeated; there are as many tuples as the shortest of the other arguments has items, or one. *)
Theorem C29_zip_broadcast (maxsize : nat) (args : list (zarg A)) (rows : list (list A)) :
  (forall l, In (Iterator A l) args -> length l <= maxsize) -> 1 <= maxsize ->
  zip_broadcast A maxsize args = Ok rows ->
  (forall j t, nth_error rows j = Some t -> Forall2 (fun a x => item A a j = Some x) args t) /\
  ((forall a, In a args -> long A a = None) /\ length rows = 1 \/
   (exists a, In a args /\ long A a = Some (length rows)) /\
   forall a m, In a args -> long A a = Some m -> length rows <= m).
Proof. exact (zip_broadcast_spec A maxsize args rows). Qed.

(** inspect_special_values counts the -1, 0 and 1 if there is nothing else, and tells whether all values are equal. *)
Theorem C29_inspect_special_values (z o mo : A) (v : list A) :
  (forall a b, eqb a b = true <-> a = b) -> z <> o /\ z <> mo /\ o <> mo -> v <> [] ->
  let r := inspect_special_values A eqb z o mo v in
  (same r = true <-> all_same A v) /\
  ((forall a, In a v -> a = z \/ a = o \/ a = mo) /\ other r = false /\
     nmones r = count A eqb v mo /\ nzeros r = count A eqb v z /\ nones r = count A eqb v o \/
   (exists a, In a v /\ ~ (a = z \/ a = o \/ a = mo)) /\ other r = true /\ nmones r = 0 /\ nzeros r = 0 /\ nones r = 0).
Proof. exact (fun H D => inspect_spec A eqb H z o mo D v). Qed.
End Helpers.

Theorem C29_inspect_bool (v : list bool) : v <> [] ->
  let r := inspect_bool v in
  nmones r = 0 /\ nzeros r = count bool Bool.eqb v false /\ nones r = count bool Bool.eqb v true /\ other r = false /\
  (same r = true <-> all_same bool v).
Proof. exact (inspect_bool_spec v). Qed.

Print Assumptions C29_first.
Print Assumptions C29_last.
Print Assumptions C29_ifirst.
Print Assumptions C29_ilast.
Print Assumptions C29_ifirst_value.
Print Assumptions C29_ifirst_is_not.
Print Assumptions C29_first_is_not.
Print Assumptions C29_last_is_not.
Print Assumptions C29_merge_none.
Print Assumptions C29_renumerate.
Print Assumptions C29_product.
Print Assumptions C29_zip_broadcast.
Print Assumptions C29_inspect_special_values.
Print Assumptions C29_inspect_bool.

Example C29_case :
  (forall a b, Nat.eqb a b = true <-> a = b) /\
  ilast nat [1; 2; 3] (fun x => 1 <? x) = Ok 2 /\
  merge_none nat Nat.eqb (Some [Some 1; None; Some 3]) (Some [None; Some 2; Some 3]) = Ok (Some [Some 1; Some 2; Some 3]) /\
  zip_broadcast nat 100 [NotIterable nat 7; Container nat [1; 2; 3]; Iterator nat [4; 5]] = Ok [[7; 1; 4]; [7; 2; 5]] /\
  inspect_special_values Z Z.eqb 0%Z 1%Z (-1)%Z [0; -1; -1]%Z =
    {| nmones := 2; nzeros := 1; nones := 0; other := false; same := false |}.
Proof. split; [exact Nat.eqb_eq|auto]. Qed.
