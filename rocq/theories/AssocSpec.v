(** What the associated operators denote. *)
From Verif Require Import Base.
From Coq Require Import ssreflect ssrfun ssrbool.
From Verif Require Import FlagsModel Algebra Matrix FlagsSpec AssocModel.
Set Implicit Arguments.
Unset Strict Implicit.
Local Open Scope mx_scope.

Section Meaning.
Variables (R : cring) (conj : conjugation R) (n : nat).

(** The mathematical meaning of a path such as A.C.T.I: a matrix and its inverse are carried along. *)
Definition apply_attr (M : (mx R n n * mx R n n)%type) (a : attr) : (mx R n n * mx R n n)%type :=
  match a with
  | AC => (conjmx conj (fst M), conjmx conj (snd M))
  | AT => ((fst M)^T, (snd M)^T)
  | AH => (adjmx conj (fst M), adjmx conj (snd M))
  | AI => ((snd M), (fst M))
  end.
Definition path_matrix (A Ai : mx R n n) (p : list attr) : mx R n n := fst (fold_left apply_attr p (A, Ai)).

(** The path that names each slot. *)
Definition slot_path (g : assoc) : list attr :=
  match g with
  | aC => [AC] | aT => [AT] | aH => [AH] | aI => [AI]
  | aIC => [AI; AC] | aIT => [AI; AT] | aIH => [AI; AH]
  end.

(** The map computed by an operator object, when its direct method is defined: [A] for the operator itself, what the
    rules ([rsem]) and methods ([msem]) provided by the user compute, and [Operator.conjugate] (core.py 416-422)
    computes the conjugate of what the other operator computes. *)
Fixpoint sem (A : mx R n n) (rsem msem : assoc -> mx R n n) (o : node) : option (mx R n n) :=
  match o with
  | Self => Some A
  | New g s => sem_source A rsem msem s
  end
with sem_source (A : mx R n n) (rsem msem : assoc -> mx R n n) (s : source) : option (mx R n n) :=
  match s with
  | SRule r => Some (rsem r)
  | SMethod m => Some (msem m)
  | SConjOf o => if sem A rsem msem o is Some M then Some (conjmx conj M) else None
  | SNone => None
  end.

(** What the user provides is right: wherever there is a rule or a method it computes what its name says. *)
Definition right_methods (A Ai : mx R n n) (rule meth : assoc -> bool) (rsem msem : assoc -> mx R n n) : Prop :=
  (forall g, rule g = true -> rsem g = path_matrix A Ai (slot_path g)) /\
  (forall g, meth g = true \/ g = aC -> msem g = path_matrix A Ai (slot_path g)).

(** [Ai] is the inverse of A; or A has no inverse, none is provided, and (by convention) [Ai] = 0. *)
Definition inverse_of (A Ai : mx R n n) (rule meth : assoc -> bool) : Prop :=
  Ai *m A = onemx n /\ A *m Ai = onemx n \/
  ((forall B, B *m A <> onemx n) /\ Ai = zeromx /\
   forall g, In g [aI; aIC; aIT; aIH] -> rule g = false /\ meth g = false).
End Meaning.

(** The parity of the conjugations, transpositions and inversions in a path. *)
Definition bits_attr (b : bool * bool * bool) (a : attr) : bool * bool * bool :=
  let '(c, t, i) := b in
  match a with
  | AC => (~~ c, t, i) | AT => (c, ~~ t, i) | AH => (~~ c, ~~ t, i) | AI => (c, t, ~~ i)
  end.
Definition bits (p : list attr) : bool * bool * bool := fold_left bits_attr p (false, false, false).

(** The combinations of flags for which the library gives a single object to each parity: every real operator except
    one marked involutary and idempotent without being marked symmetric, and the complex operators that are neither
    marked hermitian nor both orthogonal and unitary. *)
Definition coherent (f : flags) : bool :=
  if f Real then f Symmetric || ~~ (f Involutary && f Idempotent)
  else ~~ f Hermitian && ~~ (f Orthogonal && f Unitary).
