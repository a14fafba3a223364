(** Shapes and sequence helpers: utils/misc.py and utils/cythonutils.pyx. *)
From Verif Require Import Base.

(** ** broadcast_shapes, misc.py 182-215.  Lengths are natural numbers; arguments that are not tuples (TypeError, 197)
    cannot be expressed. *)

(** [max(len(s) for s in shapes)], 199; the code raises ValueError on an empty list. *)
Definition max_len (shapes : list (list nat)) : nat := fold_right Nat.max 0 (map (@length nat) shapes).

(** 200 *)
Definition pad (ndim : nat) (s : list nat) : list nat := repeat 1 (ndim - length s) ++ s.

(** [zip( *shapes_ )], 202, for lists that all have the length [n]. *)
Fixpoint columns (n : nat) (rows : list (list nat)) : list (list nat) :=
  match n with
  | O => []
  | S n' => map (hd 1) rows :: columns n' (map (@tl nat) rows)
  end.

(** 203-213 *)
Definition broadcast_dim (dims : list nat) : result nat :=
  match filter (fun d => negb (d =? 1)) dims with
  | [] => Ok 1
  | (d0 :: _) as dims' => if existsb (fun d => negb (d =? d0)) dims' then Raise ValueError else Ok d0
  end.

Definition broadcast_shapes (shapes : list (list nat)) : result (list nat) :=
  match shapes with
  | [] => Raise ValueError
  | _ => let ndim := max_len shapes in
         rmap broadcast_dim (columns ndim (map (pad ndim) shapes))
  end.

(** ** reshape_broadcast, misc.py 806-847.  An array is a base address, a shape and strides. *)
Record strided := { st_base : Z; st_shape : list nat; st_strides : list Z }.

(** Python's [l[-k:]] (all of [l] when k = 0). *)
Definition last_slice {A} (k : nat) (l : list A) : list A :=
  match k with O => l | _ => skipn (length l - k) l end.

Definition reshape_broadcast (x : strided) (shape : list nat) : result strided :=
  let ndim := length (st_shape x) in
  if (length shape <? ndim)
     || existsb (fun p => negb (fst p =? 1) && negb (fst p =? snd p)) (combine (st_shape x) (last_slice ndim shape))
  then Raise ValueError
  else Ok {| st_base := st_base x; st_shape := shape;
             st_strides := repeat 0%Z (length shape - ndim) ++
                           map (fun p => if fst p =? 1 then 0%Z else snd p) (combine (st_shape x) (st_strides x)) |}.

(** The address of an element of a strided array (numpy). *)
Fixpoint dot (idx : list nat) (strides : list Z) : Z :=
  match idx, strides with
  | i :: idx', s :: strides' => (Z.of_nat i * s + dot idx' strides')%Z
  | _, _ => 0%Z
  end.
Definition address (x : strided) (idx : list nat) : Z := (st_base x + dot idx (st_strides x))%Z.

(** ** Helpers on iterables.  Items have a decidable equality [eqb] (Python's [==]; ifirst_is_not uses [is not], 468,
    which is identified with [!=] here). *)
Section Helpers.
Variable A : Type.
Variable eqb : A -> A -> bool.

(** first, misc.py 373-394 *)
Fixpoint first (l : list A) (f : A -> bool) : result A :=
  match l with
  | [] => Raise ValueError
  | a :: l' => if f a then Ok a else first l' f
  end.

(** first_is_not, 397-415 *)
Fixpoint first_is_not (l : list A) (v : A) : A :=
  match l with
  | [] => v
  | a :: l' => if negb (eqb a v) then a else first_is_not l' v
  end.

(** The generator [(i for i, _ in enumerate(iterable) if f(_))] *)
Fixpoint ifirst_from (i : nat) (l : list A) (f : A -> bool) : result nat :=
  match l with
  | [] => Raise ValueError
  | a :: l' => if f a then Ok i else ifirst_from (S i) l' f
  end.

(** ifirst, 418-445: a callable or a value. *)
Definition ifirst (l : list A) (f : A -> bool) : result nat := ifirst_from 0 l f.
Definition ifirst_value (l : list A) (v : A) : result nat := ifirst_from 0 l (fun a => eqb a v).

(** ifirst_is_not, 448-470 *)
Definition ifirst_is_not (l : list A) (v : A) : result nat := ifirst_from 0 l (fun a => negb (eqb a v)).

(** ilast, 473-497 *)
Definition ilast (l : list A) (f : A -> bool) : result nat :=
  index <- ifirst (rev l) f ;; Ok (length l - index - 1).
Definition ilast_value (l : list A) (v : A) : result nat :=
  index <- ifirst_value (rev l) v ;; Ok (length l - index - 1).

(** ilast_is_not, 500-521 *)
Definition ilast_is_not (l : list A) (v : A) : result nat :=
  index <- ifirst_is_not (rev l) v ;; Ok (length l - index - 1).

(** last, 609-627; last_is_not, 630-648 *)
Definition last_ (l : list A) (f : A -> bool) : result A := first (rev l) f.
Definition last_is_not (l : list A) (v : A) : A := first_is_not (rev l) v.

(** merge_none, 685-708; the arguments may be None. (When exactly one is None, len raises TypeError.) *)
Definition isnone (p : option A) : bool := match p with None => true | _ => false end.
Definition differ (p q : option A) : bool :=
  match p, q with Some x, Some y => negb (eqb x y) | None, None => false | _, _ => true end.
Definition merge_none (a b : option (list (option A))) : result (option (list (option A))) :=
  match a, b with
  | None, None => Ok None
  | Some a, Some b =>
      if negb (length a =? length b) then Raise ValueError
      else if existsb (fun pq => differ (fst pq) (snd pq))
                (filter (fun pq => negb (isnone (fst pq) || isnone (snd pq))) (combine a b)) then Raise ValueError
      else Ok (Some (map (fun pq => if isnone (fst pq) then snd pq else fst pq) (combine a b)))
  | _, _ => Raise TypeError
  end.

(** renumerate, 799-803 *)
Definition renumerate (l : list A) : list (nat * A) := combine (rev (seq 0 (length l))) (rev l).

(** product of a list, tuple or generator, 786-793 *)
Definition product_list (one : A) (mul : A -> A -> A) (l : list A) : A := fold_left mul l one.

(** zip_broadcast, 1197-1227.  An argument is not iterable (or a string with iter_str=False), a container with a
    length, or an iterable without length, that stops after some items.  [maxsize]: sys.maxsize. *)
Inductive zarg := NotIterable (a : A) | Container (l : list A) | Iterator (l : list A).
Variable maxsize : nat.

(** 1210-1217 *)
Definition zarg_len (a : zarg) : nat :=
  match a with NotIterable _ => 1 | Container l => length l | Iterator _ => maxsize end.

(** 1219-1224 *)
Definition wrap (n : nat) (a : zarg) : list A :=
  match a with
  | NotIterable x => repeat x n
  | Container [x] => repeat x n
  | Container l => l
  | Iterator l => l
  end.

(** [zip( *args )] on lists: as many tuples as the shortest has items. *)
Fixpoint zip_rows (fuel : nat) (rows : list (list A)) : list (list A) :=
  match fuel with
  | O => []
  | S fuel' =>
      match rmap (fun r => match r with [] => Raise StopIteration | x :: _ => Ok x end) rows with
      | Raise _ => []
      | Ok t => t :: zip_rows fuel' (map (@tl A) rows)
      end
  end.

(** The number of tuples is bounded by the length of the first argument, whence the fuel. *)
Definition zip_broadcast (args : list zarg) : result (list (list A)) :=
  match args with
  | [] => Raise ValueError
  | _ => let n := fold_right Nat.max 0 (map zarg_len args) in
         let rows := map (wrap n) args in
         Ok (zip_rows (length (hd [] rows)) rows)
  end.

(** inspect_special_values, misc.py 524-559 and cythonutils.pyx 10-160 for the kinds 'i', 'f', 'c' (NaN excluded:
    [eqb] is an equality).  [z], [o], [mo]: 0, 1 and -1. *)
Variables z o mo : A.
Record counts := { nmones : nat; nzeros : nat; nones : nat; other : bool; same : bool }.

Fixpoint inspect_loop (v0 : A) (v : list A) (c : counts) : counts :=
  match v with
  | [] => if other c then {| nmones := 0; nzeros := 0; nones := 0; other := true; same := true |} else c
  | value :: v' =>
      let c :=
        if eqb value z then {| nmones := nmones c; nzeros := S (nzeros c); nones := nones c; other := other c; same := same c |}
        else if eqb value o then {| nmones := nmones c; nzeros := nzeros c; nones := S (nones c); other := other c; same := same c |}
        else if eqb value mo then {| nmones := S (nmones c); nzeros := nzeros c; nones := nones c; other := other c; same := same c |}
        else {| nmones := nmones c; nzeros := nzeros c; nones := nones c; other := true; same := same c |} in
      let c := if same c && negb (eqb value v0)
               then {| nmones := nmones c; nzeros := nzeros c; nones := nones c; other := other c; same := false |} else c in
      if negb (same c) && other c then {| nmones := 0; nzeros := 0; nones := 0; other := true; same := false |}
      else inspect_loop v0 v' c
  end.

Definition inspect_special_values (v : list A) : counts :=
  match v with
  | [] => {| nmones := 0; nzeros := 0; nones := 0; other := false; same := false |}
  | v0 :: _ => inspect_loop v0 v {| nmones := 0; nzeros := 0; nones := 0; other := false; same := true |}
  end.
End Helpers.

(** inspect_special_values_bool8, cythonutils.pyx 10-20. *)
Definition inspect_bool (v : list bool) : counts :=
  match v with
  | [] => {| nmones := 0; nzeros := 0; nones := 0; other := false; same := false |}
  | _ => let nz := length (filter negb v) in
         {| nmones := 0; nzeros := nz; nones := length v - nz; other := false;
            same := (nz =? 0) || (nz =? length v) |}
  end.
