(** How messages are read: see C73. *)
From Coq Require Import List Arith ZArith QArith String Ascii.
Import ListNotations.
Local Open Scope string_scope.

Fixpoint free (c : ascii) (t : string) : Prop := match t with "" => True | String d t => d <> c /\ free c t end.
(** The texts between quotes: [inside] tells that a quote is open, [t] is what has been read since it was opened *)
Fixpoint quoted_from (inside : bool) (t : string) (text : string) : list string :=
  match text with
  | "" => []
  | String c text =>
      if Ascii.eqb c "'" then (if inside then t :: quoted_from false "" text else quoted_from true "" text)
      else quoted_from inside (if inside then t ++ String c "" else t) text
  end.
Definition quoted (text : string) : list string := quoted_from false "" text.
(** How float are written: without spaces, and different numbers have different texts *)
Definition written (fstr : Q -> string) : Prop := (forall q, free " " (fstr q)) /\ forall q q', fstr q = fstr q' -> (q == q')%Q.
(** The integer part of the decimal logarithm *)
Definition integer_log (log10 : nat -> nat) : Prop := forall n, (1 <= n)%nat -> (10 ^ log10 n <= n < 10 ^ (log10 n + 1))%nat.
(** The number that a text of decimal digits denotes; [a] is what has been read so far *)
Fixpoint read_from (a : nat) (t : string) : option nat :=
  match t with
  | "" => Some a
  | String c t => let d := nat_of_ascii c in if (Nat.leb 48 d && Nat.leb d 57)%bool then read_from (10 * a + (d - 48))%nat t else None
  end.
Definition read (t : string) : option nat := read_from 0 t.
