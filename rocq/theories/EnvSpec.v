(** What the environment variables mean. *)
From Coq Require Import Ascii String.
From Verif Require Import Base EnvModel.
Local Open Scope Z_scope.

(** The number whose decimal digits are given *)
Definition decimal_digit (c : ascii) : Prop := (48 <= nat_of_ascii c <= 57)%nat.
Definition number (ds : list ascii) : Z := fold_left (fun n c => 10 * n + (Z.of_nat (nat_of_ascii c) - 48)) ds 0.
(** Non-empty groups of digits, separated by underscores *)
Inductive grouped : list ascii -> list ascii -> Prop :=
| One : forall ds, ds <> [] -> Forall decimal_digit ds -> grouped ds ds
| More : forall ds t ds', ds <> [] -> Forall decimal_digit ds -> grouped t ds' -> grouped (ds ++ "_"%char :: t) (ds ++ ds').
(** The integers that can be written *)
Inductive integer : list ascii -> Z -> Prop :=
| Unsigned : forall t ds, grouped t ds -> integer t (number ds)
| Plus : forall t ds, grouped t ds -> integer ("+"%char :: t) (number ds)
| Minus : forall t ds, grouped t ds -> integer ("-"%char :: t) (- number ds).

Definition space (c : ascii) : Prop := (9 <= nat_of_ascii c <= 13)%nat \/ (28 <= nat_of_ascii c <= 32)%nat.
(** A text that has neither a space at its beginning nor at its end, and is not empty *)
Definition trimmed (t : list ascii) : Prop :=
  t <> [] /\ (forall c t', t = c :: t' -> ~ space c) /\ (forall c t', t = t' ++ [c] -> ~ space c).

(** The block does not change the numbers of threads itself. *)
Fixpoint respectful (p : block) : Prop :=
  match p with
  | SetOmp _ | SetMkl _ => False
  | Try p | Threads _ p => respectful p
  | Seq p q => respectful p /\ respectful q
  | _ => True
  end.
(** The block does not catch exceptions. *)
Fixpoint catches_nothing (p : block) : Prop :=
  match p with
  | Try _ => False
  | Threads _ p => catches_nothing p
  | Seq p q => catches_nothing p /\ catches_nothing q
  | _ => True
  end.
(** All its pools have the default size. *)
Fixpoint default_sizes (p : block) : Prop :=
  match p with
  | Threads n p => n = None /\ default_sizes p
  | Try p => default_sizes p
  | Seq p q => default_sizes p /\ default_sizes q
  | _ => True
  end.
(** The pools that are not closed have been opened before. *)
Definition coherent (s : world) : Prop := forall i, In i (live s) -> (i < opened s)%nat.
