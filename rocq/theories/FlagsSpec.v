(** What the flags of a linear operator mean for its matrix (the comments of flags.py 14-23). *)
From Verif Require Import Base.
From Coq Require Import ssreflect ssrfun ssrbool.
From Verif Require Import FlagsModel Algebra Matrix.
Set Implicit Arguments.
Unset Strict Implicit.
Local Open Scope mx_scope.

Section Meaning.
(** The scalars: a commutative ring with a conjugation. *)
Variables (R : cring) (conj : conjugation R).

Definition conjmx m n (A : mx R m n) : mx R m n := mapmx conj A.
Definition adjmx m n (A : mx R m n) : mx R n m := conjmx A^T.

Definition holds n (A : mx R n n) (k : flag) : Prop :=
  match k with
  | Real => conjmx A = A
  | Symmetric => A^T = A
  | Hermitian => adjmx A = A
  | Idempotent => A *m A = A
  | Involutary => A *m A = onemx _
  | Orthogonal => A^T *m A = onemx _
  | Unitary => adjmx A *m A = onemx _
  | _ => True    (* not statements about the matrix *)
  end.

(** All the flags that are set are true of the matrix. *)
Definition true_flags n (A : mx R n n) (f : flags) : Prop := forall k, f k = true -> holds A k.

(** The same, leaving the flag idempotent aside. *)
Definition true_flags_but_idempotent n (A : mx R n n) (f : flags) : Prop :=
  forall k, k <> Idempotent -> f k = true -> holds A k.

(** The declared flags are true of the matrix. *)
Definition true_declared n (A : mx R n n) (d : declared) : Prop :=
  match d with
  | DNone => True
  | DDict d => forall k, dtrue d k = true -> holds A k
  | DString l | DList l => forall k, In k l -> holds A k
  | DFlags f => true_flags A f
  end.

(** What a right-hand side denotes. *)
Definition rhs_matrix n (A : mx R n n) (r : rhs) : mx R n n := match r with RSelf => A | ROne => onemx n end.

(** What the left-hand side denotes; [Ai] is the matrix of the inverse operator. *)
Definition subject_matrix n (A Ai : mx R n n) (s : subject) : mx R n n :=
  match s with
  | UC => conjmx A | UT => A^T | UH => adjmx A | UI => Ai
  | I_self => Ai *m A | T_self => A^T *m A | H_self => adjmx A *m A | self_self => A *m A
  end.

(** What [A * A] denotes according to the code. *)
Definition square_matrix n (A : mx R n n) (r : square_result) : mx R n n :=
  match r with SameOperator => A | Composition => A *m A end.

(** Operands: their flags and their matrices. *)
Definition operands n := list (flags * mx R n n).
Definition true_operands n (ops : operands n) : Prop := forall f A, In (f, A) ops -> true_flags A f.

(** The matrix of a product, of a sum. *)
Definition mxprod n (ops : operands n) : mx R n n := fold_right (fun fA B => snd fA *m B) (onemx n) ops.
Definition mxsum n (ops : operands n) : mx R n n := fold_right (fun fA B => snd fA +m B) zeromx ops.

(** Blocks may have different sizes: the matrix of a block diagonal operator. *)
Definition blocks := list (flags * {n : nat & mx R n n}).
Definition true_blocks (ops : blocks) : Prop := forall f B, In (f, B) ops -> true_flags (projT2 B) f.
Definition bdiag (ops : blocks) : {n : nat & mx R n n} :=
  fold_right (fun fA B => existT (fun n => mx R n n) (projT1 (snd fA) + projT1 B)%nat
                            (diagmx (projT2 (snd fA)) (projT2 B)))
    (existT (fun n => mx R n n) 0 (onemx 0)) ops.
End Meaning.

(** ** The flags linear and square, for operators that are any maps *)

(** Vectors *)
Record lmod (R : cring) := {
  vec :> Type; v0 : vec; vadd : vec -> vec -> vec; vscale : R -> vec -> vec;
  vaddA : forall x y z, vadd x (vadd y z) = vadd (vadd x y) z; vaddC : forall x y, vadd x y = vadd y x; vadd0 : forall x, vadd v0 x = x;
  vaddN : forall x, vadd x (vscale (ropp r1) x) = v0;
  vscaleA : forall a b x, vscale a (vscale b x) = vscale (rmul a b) x; vscale1 : forall x, vscale r1 x = x;
  vscaleDr : forall a x y, vscale a (vadd x y) = vadd (vscale a x) (vscale a y);
  vscaleDl : forall a b x, vscale (radd a b) x = vadd (vscale a x) (vscale b x) }.
Arguments v0 {R _}. Arguments vadd {R _}. Arguments vscale {R _}.

Section Maps.
Variables (R : cring) (V : lmod R).
Notation "a *: x" := (vscale a x) (at level 40). Notation "x + y" := (vadd x y) : mx_scope.
Definition linear_map (g : V -> V) : Prop := forall a x y, g (a *: x + y) = a *: g x + g y.
Definition map_operands := list (flags * (V -> V)).
Definition true_linear (ops : map_operands) : Prop := forall f g, In (f, g) ops -> f Linear = true -> linear_map g.
Definition map_prod (ops : map_operands) : V -> V := fold_right (fun fg h x => snd fg (h x)) (fun x => x) ops.
Definition map_sum (ops : map_operands) : V -> V := fold_right (fun fg h x => snd fg x + h x) (fun _ => v0) ops.

(** A block diagonal operator acts on each piece of its input; sums and multiples of lists of pieces. *)
Definition map_diag (ops : map_operands) (xs : list V) : list V := List.map (fun p => snd (fst p) (snd p)) (List.combine ops xs).
Definition axpy (a : R) (xs ys : list V) : list V := List.map (fun p => a *: fst p + snd p) (List.combine xs ys).
End Maps.

(** Operands with their numbers of input and output elements; consecutive operands of a product fit. *)
Definition sized := list (flags * (nat * nat)).
Definition true_square (ops : sized) : Prop := forall f i o, In (f, (i, o)) ops -> f Square = true -> i = o.
Fixpoint fit (ops : sized) (nin nout : nat) : Prop :=
  match ops with
  | [] => nin = nout
  | (_, (i, o)) :: ops' => o = nout /\ fit ops' nin i
  end.
