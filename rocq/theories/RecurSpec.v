(** What the keywords of an iterative algorithm mean. *)
From Coq Require Import Ascii String Decimal.
From Verif Require Import Base.

Definition spelled (s : string) : list ascii := list_ascii_of_string s.
Definition ends_in (s k : list ascii) : Prop := exists p, k = p ++ s.

(** The decimal numeral of a number *)
Fixpoint digits (d : uint) : list ascii :=
  match d with
  | Nil => []
  | D0 d => ascii_of_nat 48 :: digits d | D1 d => ascii_of_nat 49 :: digits d | D2 d => ascii_of_nat 50 :: digits d
  | D3 d => ascii_of_nat 51 :: digits d | D4 d => ascii_of_nat 52 :: digits d | D5 d => ascii_of_nat 53 :: digits d
  | D6 d => ascii_of_nat 54 :: digits d | D7 d => ascii_of_nat 55 :: digits d | D8 d => ascii_of_nat 56 :: digits d
  | D9 d => ascii_of_nat 57 :: digits d
  end.
(** x is followed by x_old, x_old2, x_old3... *)
Definition older (j : nat) : list ascii :=
  match j with 0 => [] | 1 => spelled "_old" | _ => spelled "_old" ++ digits (Nat.to_uint j) end.

(** A name that is not the one of another value or of the dtype of a variable *)
Definition decimal_digit (c : ascii) : Prop := 48 <= nat_of_ascii c <= 57.
Definition plain (v : list ascii) : Prop :=
  ~ ends_in (spelled "_new") v /\ ~ ends_in (spelled "_dtype") v /\ forall ds, Forall decimal_digit ds -> ~ ends_in (spelled "_old" ++ ds) v.

(** The order of the recursion: the number of consecutive previous values there are, plus one *)
Definition recursion_order (names : list (list ascii)) (n : nat) : Prop :=
  1 <= n /\ (forall j, 1 <= j < n -> exists k, In k names /\ ends_in (older j) k) /\ forall k, In k names -> ~ ends_in (older n) k.

(** The alphabetical order *)
Definition alphabetical (a b : list ascii) : Prop :=
  (exists r, b = a ++ r) \/
  exists p x y a' b', a = p ++ x :: a' /\ b = p ++ y :: b' /\ nat_of_ascii x < nat_of_ascii y.

(** ** The values of the keywords *)
From Verif Require Import RecurModel.
(** The shape of an initial value: something that is not an array nor a number is a scalar object. *)
Definition dims (x : arg) : list nat := match x with Value sh _ => sh | Type_ _ => [] end.
(** The initial values of a variable, of which there are m, are all given and have that shape. *)
Definition values_given (kws : list (list ascii * arg)) (m : nat) (v : list ascii) (sh : list nat) : Prop :=
  forall j, j < m -> exists x, In (v ++ older j, x) kws /\ dims x = sh.
Definition complex_value (kws : list (list ascii * arg)) (m : nat) (v : list ascii) : Prop :=
  exists j sh, j < m /\ In (v ++ older j, Value sh Complex) kws.
Definition without_dtype (kws : list (list ascii * arg)) (v : list ascii) : Prop := forall x, ~ In (v ++ spelled "_dtype", x) kws.
(** There is a complex dtype with the precision of the default one, if it is needed. *)
Definition dtype_possible (kws : list (list ascii * arg)) (m : nat) (default : dtype) (v : list ascii) : Prop :=
  (forall x, In (v ++ spelled "_dtype", x) kws -> exists d, x = Type_ d) /\
  (without_dtype kws v -> d_kind default = Float -> complex_value kws m v -> In (d_bits default) [32; 64; 128]).
