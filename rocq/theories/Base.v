(** Common vocabulary: Python exceptions as values.  Nothing here models a particular file. *)
From Coq Require Export List Arith ZArith Lia Bool.
Export ListNotations.

(** The Python exceptions raised by the modelled code (the message is dropped). *)
Inductive exn :=
| ValueError | TypeError | ZeroDivisionError | KeyError | IndexError | RuntimeError
| StopIteration | AbnormalStopIteration | NotImplementedError | KeyboardInterrupt | AttributeError
| OtherError (n : nat).

Inductive result (A : Type) :=
| Ok (a : A)
| Raise (e : exn).
Arguments Ok {A} a.
Arguments Raise {A} e.

Definition rbind {A B} (r : result A) (f : A -> result B) : result B :=
  match r with Ok a => f a | Raise e => Raise e end.

Notation "x <- r ;; k" := (rbind r (fun x => k)) (at level 61, r at next level, right associativity).

Definition is_ok {A} (r : result A) : bool := match r with Ok _ => true | Raise _ => false end.

(** Sequencing a list of results, stopping at the first exception (a Python comprehension). *)
Fixpoint rmap {A B} (f : A -> result B) (l : list A) : result (list B) :=
  match l with
  | [] => Ok []
  | a :: l' => b <- f a ;; bs <- rmap f l' ;; Ok (b :: bs)
  end.
