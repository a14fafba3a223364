(** Convolutions and Fourier transforms, /repo/src/pyoperators/fft.py.  Numbers are elements of a ring with a conjugation
    (rounding is left out) and FFTW is its specification (the transforms of Dft.v; the root of unity of each length is an
    argument).  Arrays are functions of the list of the indices, the last axis first.  The plans, wisdom files, threads,
    dtypes, alignment and the memory pool are left out; what a buffer holds outside of the half spectrum is arbitrary. *)
From Verif Require Import Base Algebra Dft.

Section Fft.
Context {K : cfield}.
Notation array := (list nat -> K).

(** The axes of an array of shape s: all of them are transformed, or those of a mask. *)
Definition all_axes (w : nat -> K) (s : list nat) : list (axis K) := map (fun n => Ax n (w n) true) s.
Definition some_axes (w : nat -> K) (s : list nat) (mask : list bool) : list (axis K) := map (fun p => Ax (fst p) (w (fst p)) (snd p)) (combine s mask).
Definition product (s : list nat) : nat := fold_right Nat.mul 1 s.

(** ** the kernel *)
Fixpoint inb (s i : list nat) : bool := match s, i with n :: s, k :: i => (k <? n) && inb s i | _, _ => true end.
Fixpoint upd_nth (a : nat) (f : nat -> nat) (i : list nat) : list nat :=
  match i, a with [], _ => [] | v :: i, O => f v :: i | v :: i, S a => v :: upd_nth a f i end.
(** np.roll(x, -o, axis=a), for an axis of length n *)
Definition roll (n o a : nat) (x : array) : array := fun i => x (upd_nth a (fun v => (v + o) mod n) i).
(** _get_kernel_fft, 526-537, before the transform: the kernel in a corner, its origin (ks - 1) // 2 moved to 0 *)
Definition origin (ks : list nat) : list nat := map (fun k => (k - 1) / 2) ks.
Definition padded_kernel (s ks : list nat) (ker : array) : array :=
  let x := fun i => if inb ks i then ker i else r0 in
  fold_left (fun x p => let '(a, (n, o)) := p in roll n o a x) (combine (seq 0 (length ks)) (combine s (origin ks))) x.

(** ** _FFTWRealConvolutionOperator, 184-345, and its transpose, 348-365.  [junk] is what is not stored. *)
Record rconv := RC { rc_kernel : array; rc_transposed : bool }.

(** _FFTWConvolutionOperator.__init__, 88-170, for a real kernel: checks and kernel *)
Definition make_real (w : nat -> K) (s ks : list nat) (junk ker : array) : result rconv :=
  if negb (Nat.eqb (length s) (length ks)) then Raise ValueError
  else if existsb (fun p => snd p <? fst p) (combine ks s) then Raise ValueError
  else Ok (RC (fun k => rmul (r2c (all_axes w s) junk (padded_kernel s ks ker) k) (ninv (product s))) false).
(** the rule 'T', 215-220 *)
Definition rc_T (op : rconv) : rconv := RC (rc_kernel op) true.
(** get_kernel, 255-258 and 356-357 *)
Definition get_kernel (op : rconv) : array := if rc_transposed op then fun k => conj (rc_kernel op k) else rc_kernel op.
(** direct, 243-253 and 359-365 *)
Definition rc_direct (w : nat -> K) (s : list nat) (junk : array) (op : rconv) (x : array) : array :=
  let buf := r2c (all_axes w s) junk x in
  let buf := if rc_transposed op then fun k => rmul (buf k) (conj (rc_kernel op k)) else fun k => rmul (buf k) (rc_kernel op k) in
  c2r (all_axes w s) buf.
(** _rule_homothety, 265-279 *)
Definition rc_homothety (op : rconv) (a : K) : rconv := RC (fun k => rmul (get_kernel op k) a) false.
(** _rule_add_real, 282-299, and _rule_cmp_real, 302-320: the operands are exchanged if the second is a transpose *)
Definition rc_add (self other : rconv) : rconv :=
  let '(self, other) := if rc_transposed other then (other, self) else (self, other) in
  RC (fun k => radd (get_kernel self k) (get_kernel other k)) false.
Definition rc_cmp (s : list nat) (self other : rconv) : rconv :=
  let '(self, other) := if rc_transposed other then (other, self) else (self, other) in
  RC (fun k => rmul (rmul (get_kernel self k) (get_kernel other k)) (rnat (product s))) false.
(** _restore_kernel, 335-345 *)
Definition restore_kernel (w : nat -> K) (s : list nat) (op : rconv) : array := c2r (all_axes w s) (get_kernel op).

(** ** complex transforms, 368-523 *)
Inductive fop := Forward | Backward.
Definition f_direct (d : list (axis K)) (op : fop) (x : array) : array := match op with Forward => fwd d x | Backward => bwd d x end.
(** the rule 'H', 445-449 and 496: a homothety and an operator *)
Definition f_H (s : list nat) (op : fop) : K * fop :=
  match op with Forward => (ninv (product s), Backward) | Backward => (rnat (product s), Forward) end.
Definition scaled_direct (d : list (axis K)) (op : K * fop) (x : array) : array := fun i => rmul (fst op) (f_direct d (snd op) x i).
(** the rules of Backward * Forward and Forward * Backward, 450-454 and 497-501 *)
Definition f_product (s : list nat) : K := rnat (product s).
(** _rule_complex_backward, 323-327: conv * Backward = Backward * Diagonal, where other.H.direct is applied to the kernel *)
Definition rule_backward (w : nat -> K) (s : list nat) (op : rconv) : fop * array :=
  (Backward, fun k => rmul (scaled_direct (all_axes w s) (f_H s Backward) (restore_kernel w s op) k) (ninv (product s))).
(** _rule_complex_forward, 330-333: Forward * conv = Diagonal * Forward *)
Definition rule_forward (w : nat -> K) (s : list nat) (op : rconv) : array * fop :=
  (f_direct (all_axes w s) Forward (restore_kernel w s op), Forward).

(** A complex kernel, 112-124: n * fft.H * Diagonal(kernel_fft / n) * fft *)
Definition complex_direct (w : nat -> K) (s ks : list nat) (ker x : array) : array :=
  let d := all_axes w s in
  let kernel_fft := fun k => rmul (fwd d (padded_kernel s ks ker) k) (ninv (product s)) in
  let y := f_direct d Forward x in
  let y := fun k => rmul (kernel_fft k) (y k) in
  let y := scaled_direct d (f_H s Forward) y in
  fun i => rmul (rnat (product s)) (y i).
End Fft.
Arguments rconv : clear implicits.
