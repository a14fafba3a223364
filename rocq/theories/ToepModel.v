(** SymmetricBandToeplitzOperator, /repo/src/pyoperators/linear.py 1704-1823.  Numbers are elements of a ring with a
    conjugation, so that rounding is left out; FFTW is its specification (the transforms of Dft.v, with the root of unity
    given as an argument); the plans, the number of threads, the dtypes and the memory pool are left out. *)
From Verif Require Import Base Algebra Dft.

Section Toeplitz.
Context {K : cfield}.
Notation vec := (list K).

(** The size of the transforms: fftsize = 2; while fftsize < nsamples + ncorr: fftsize *= 2, 1746-1748. *)
Fixpoint double (fuel s target : nat) : nat :=
  match fuel with O => s | S fuel => if s <? target then double fuel (s * 2) target else s end.
Definition fftsize (nsamples ncorr : nat) : nat := double (nsamples + ncorr) 2 (nsamples + ncorr).

(** FFTW, real to half complex and half complex to real; a vector as an array *)
Definition ax1 (n : nat) (w : K) : list (axis K) := [Ax n w true].
Definition arr (v : vec) : list nat -> K := fun i => nth (hd 0 i) v r0.
Definition fftw_r2c (n : nat) (w : K) (buf : vec) : vec := map (fun k => fwd (ax1 n w) (arr buf) [k]) (seq 0 (n / 2 + 1)).
Definition fftw_c2r (n : nat) (w : K) (half : vec) : vec := map (fun j => c2r (ax1 n w) (arr half) [j]) (seq 0 n).

(** buf[a:b] = v and buf[a:b] = 0 *)
Definition set_slice (a b : nat) (v buf : vec) : result vec :=
  if Nat.eqb (length v) (Nat.min b (length buf) - a) then Ok (firstn a buf ++ v ++ skipn (a + length v) buf) else Raise ValueError.
Definition zero_slice (a b : nat) (buf : vec) : vec :=
  let m := Nat.min b (length buf) - a in firstn a buf ++ repeat r0 m ++ skipn (a + m) buf.

(** _get_kernel, 1813-1823, for one row f of size ncorr + 1; [buf] is what the pool had in the buffer *)
Definition get_kernel (w : K) (n ncorr : nat) (buf f : vec) : result vec :=
  buf <- set_slice 0 (ncorr + 1) f buf ;;
  let buf := zero_slice (ncorr + 1) (n - ncorr) buf in
  buf <- set_slice (n - ncorr) n (rev (tl f)) buf ;;
  Ok (map (fun c => rmul (re c) (ninv n)) (fftw_r2c n w buf)).

(** The operator: what is multiplied along the last axis, or the Fourier transforms of the rows. *)
Inductive toep := Diag (data : vec) | Toep (nsamples ncorr n : nat) (kernel : list vec).

(** __init__, 1731-1777: the first rows as a list (one item if firstrow has one dimension).  An empty firstrow cannot be
    reshaped (1814). *)
Definition make (w : nat -> K) (pool : nat -> vec) (nsamples : nat) (rows : list vec) : result toep :=
  match length (hd [] rows) with
  | O => Raise ValueError
  | S O => Ok (Diag (map (fun f => hd r0 f) rows))
  | S ncorr =>
    let n := fftsize nsamples ncorr in
    kernel <- rmap (fun f => get_kernel (w n) n ncorr (pool n) f) rows ;;
    Ok (Toep nsamples ncorr n kernel)
  end.

(** the loop body of direct, 1800-1806 *)
Definition row_direct (w : nat -> K) (nsamples ncorr n : nat) (x kernel : vec) : vec :=
  let lpad := (2 * (ncorr + 1) - 1 - 1) / 2 in
  let buf := repeat r0 lpad ++ x ++ repeat r0 (n - (lpad + nsamples)) in
  let c := map (fun p => rmul (fst p) (snd p)) (combine (fftw_r2c n (w n) buf) kernel) in
  firstn nsamples (skipn lpad (fftw_c2r n (w n) c)).

(** zip_broadcast, utils/misc.py 1197-1227, for containers *)
Definition rep {A} (n : nat) (l : list A) : list A := match l with [a] => repeat a n | _ => l end.
Definition upd {A} (i : nat) (a : A) (l : list A) : list A := firstn i l ++ match skipn i l with [] => [] | _ :: t => a :: t end.

(** direct, 1783-1806: the rows of the input, the content of the rows of the output; [view] tells if out.reshape is a view
    of the output, and not a copy (DiagonalOperator does not reshape). *)
Definition direct (w : nat -> K) (op : toep) (view : bool) (xs outs : list vec) : list vec :=
  match op with
  | Diag data => map (fun p => map (rmul (fst p)) (snd p)) (combine (rep (length xs) data) xs)
  | Toep nsamples ncorr n kernel =>
    let m := Nat.max (length xs) (Nat.max (length outs) (length kernel)) in
    let items := combine (rep m xs) (combine (rep m (seq 0 (length outs))) (rep m kernel)) in
    let res := fold_left (fun o (p : vec * (nat * vec)) => let '(x, (i, k)) := p in upd i (row_direct w nsamples ncorr n x k) o) items outs in
    if view then res else outs
  end.
End Toeplitz.
Arguments toep : clear implicits.
