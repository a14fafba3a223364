(** utils/misc.py, least_greater_multiple 651-682: the sizes that are products of powers of given numbers. *)
From Verif Require Import Base.
Local Open Scope Z_scope.

(** OverflowError of Python is not in Base.v. *)
Definition OverflowError : exn := OtherError 56.

(** 667: int(np.ceil(np.log(np.max(a)) / np.log(v))).  The logarithms are computed with floating-point numbers: the function [power] that rounds up the
    logarithm of its second argument is an argument of the model.  The exceptional cases are written out: np.log(0) is -inf and np.log of a negative
    number nan; the division by np.log(1) = 0 gives inf, -inf or, for 0 / 0, nan; int raises OverflowError for an infinite number and ValueError for nan. *)
Definition max_power (power : Z -> Z -> nat) (m v : Z) : result nat :=
  if m <? 0 then Raise ValueError
  else if m =? 0 then Raise OverflowError
  else if v =? 1 then Raise (if m =? 1 then ValueError else OverflowError)
  else Ok (power v m).

(** 668-672: np.ogrid and the broadcast product: the list, in the order of the memory, of the products of the powers from 0 to max_power.  [wrap] is what
    the integers of numpy do to the results: nothing if the arithmetic is exact, the remainder modulo 2^64 for 64-bit integers. *)
Fixpoint products (wrap : Z -> Z) (factors : list Z) (powers : list nat) (values : Z) : list Z :=
  match factors, powers with
  | v :: factors, p :: powers => flat_map (fun k => products wrap factors powers (wrap (values * wrap (v ^ Z.of_nat k)))) (seq 0 (S p))
  | _, _ => [values]
  end.

(** The minimum of an array, None if it is empty *)
Fixpoint minimum (l : list Z) : option Z :=
  match l with
  | [] => None
  | a :: l => match minimum l with None => Some a | Some b => Some (Z.min a b) end
  end.

(** 673-678.  Before numpy 2 the values that are too small are masked; if all of them are, the result is the constant np.ma.masked, whose value 0 is
    stored.  From numpy 2 on, np.amin is called with the argument where and without initial, which numpy refuses (reduction operation 'minimum' does not
    have an identity, so to use a where mask one has to specify 'initial'). *)
Definition least (numpy2 : bool) (values : list Z) (v : Z) : result Z :=
  if numpy2 then Raise ValueError
  else Ok (match minimum (filter (fun x => negb (x <? v)) values) with Some x => x | None => 0 end).

(** 662-682.  [a] is the list of the elements of the argument a (one if it is a number), and the result that of those of the output; np.max raises
    ValueError if there are none.  The list of factors is not empty (np.ogrid of an empty list). *)
Definition least_greater_multiple (numpy2 : bool) (wrap : Z -> Z) (power : Z -> Z -> nat) (a factors : list Z) : result (list Z) :=
  if existsb (fun v => v <=? 0) factors then Raise ValueError
  else match a with
       | [] => Raise ValueError
       | x :: a' =>
           powers <- rmap (max_power power (fold_left Z.max a' x)) factors ;;
           rmap (least numpy2 (products wrap factors powers 1)) a
       end.

(** Signed 64-bit integers *)
Definition int64 (x : Z) : Z := (x + 2 ^ 63) mod 2 ^ 64 - 2 ^ 63.
(** The exact logarithm, rounded up: the least p such that m <= v^p; the second argument bounds the search. *)
Fixpoint clog_from (fuel p : nat) (v m : Z) : nat :=
  match fuel with
  | O => p
  | S fuel => if m <=? v ^ Z.of_nat p then p else clog_from fuel (S p) v m
  end.
Definition clog (v m : Z) : nat := clog_from (Z.to_nat (Z.log2_up m)) 0 v m.
