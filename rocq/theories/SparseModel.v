(** Operators made of the sparse matrices of SciPy: linear.py, SparseOperator.

    The arrays are lists of elements of a commutative ring (rounding is left out); multi-dimensional inputs and outputs are given flattened (ravel, 602-603).  The compiled functions scipy.sparse.sparsetools.xxx_matvec are not in
    the repository: the loops of SciPy's headers (csr.h, csc.h, coo.h, bsr.h, dia.h, dense.h) are written out, with y modified element by element as they do.  The conversion of the input to the type of the output is left out. *)
From Verif Require Import Base Algebra.

Section Sparse.
Context {K : cring}.
Local Open Scope cr_scope.

(** The formats of scipy.sparse handled by direct (608-626), with the attributes that it uses, and the one that is refused.  M x N is the shape of the matrix. *)
Inductive matrix :=
| Csr (M N : nat) (indptr indices : list nat) (data : list K)
| Csc (M N : nat) (indptr indices : list nat) (data : list K)
| Coo (M N : nat) (row col : list nat) (data : list K)
| Bsr (M N : nat) (R C : nat) (indptr indices : list nat) (data : list K) (* data.ravel() *)
| Dia (M N : nat) (offsets : list Z) (L : nat) (data : list (list K)) (* L = data.shape[1] *)
| Dok (M N : nat) (items : list (nat * nat * K))
| Lil (M N : nat).
(** matrix.shape *)
Definition mshape (m : matrix) : nat * nat :=
  match m with Csr M N _ _ _ | Csc M N _ _ _ | Coo M N _ _ _ | Bsr M N _ _ _ _ _ | Dia M N _ _ _ | Dok M N _ | Lil M N => (M, N) end.

(** y[i] = v *)
Fixpoint set_nth (y : list K) (i : nat) (v : K) : list K :=
  match y, i with
  | [], _ => []
  | _ :: y, O => v :: y
  | a :: y, S i => a :: set_nth y i v
  end.
(** y[i] += a * x[j] *)
Definition acc (x y : list K) (i j : nat) (a : K) : list K := set_nth y i (nth i y 0 + a * nth j x 0).
(** for jj = a, ..., b - 1 *)
Definition range (a b : nat) : list nat := seq a (b - a).

(** csr.h, csr_matvec: sum = Yx[i]; for jj: sum += Ax[jj] * Xx[Aj[jj]]; Yx[i] = sum *)
Definition csr_matvec (M : nat) (Ap Aj : list nat) (Ax x y : list K) : list K :=
  fold_left (fun y i => set_nth y i (fold_left (fun s jj => s + nth jj Ax 0 * nth (nth jj Aj 0%nat) x 0) (range (nth i Ap 0%nat) (nth (S i) Ap 0%nat)) (nth i y 0))) (seq 0 M) y.
(** csc.h, csc_matvec: for j: for ii: Yx[Ai[ii]] += Ax[ii] * Xx[j] *)
Definition csc_matvec (N : nat) (Ap Ai : list nat) (Ax x y : list K) : list K :=
  fold_left (fun y j => fold_left (fun y ii => acc x y (nth ii Ai 0%nat) j (nth ii Ax 0)) (range (nth j Ap 0%nat) (nth (S j) Ap 0%nat)) y) (seq 0 N) y.
(** coo.h, coo_matvec: for n: Yx[Ai[n]] += Ax[n] * Xx[Aj[n]] *)
Definition coo_matvec (nnz : nat) (Ai Aj : list nat) (Ax x y : list K) : list K :=
  fold_left (fun y n => acc x y (nth n Ai 0%nat) (nth n Aj 0%nat) (nth n Ax 0)) (seq 0 nnz) y.
(** dense.h, gemv on the block of A that starts at a, x at b and y at c: for i < m: dot = y[i]; for j < n: dot += A[n * i + j] * x[j]; y[i] = dot *)
Definition gemv (m n : nat) (A : list K) (a : nat) (x : list K) (b : nat) (y : list K) (c : nat) : list K :=
  fold_left (fun y i => set_nth y (c + i) (fold_left (fun s j => s + nth (a + (n * i + j)) A 0 * nth (b + j) x 0) (seq 0 n) (nth (c + i) y 0))) (seq 0 m) y.
(** bsr.h, bsr_matvec: for i < n_brow: for jj: gemv(R, C, Ax + R * C * jj, Xx + C * Aj[jj], Yx + R * i).  (For blocks of one element it calls csr_matvec.) *)
Definition bsr_matvec (n_brow R C : nat) (Ap Aj : list nat) (Ax x y : list K) : list K :=
  if (R =? 1)%nat && (C =? 1)%nat then csr_matvec n_brow Ap Aj Ax x y else
  fold_left (fun y i => fold_left (fun y jj => gemv R C Ax (R * C * jj) x (C * nth jj Aj 0%nat) y (R * i)) (range (nth i Ap 0%nat) (nth (S i) Ap 0%nat)) y) (seq 0 n_brow) y.
(** dia.h, dia_matvec: for each offset k: i_start = max(0, -k), j_start = max(0, k), j_end = min(min(n_row + k, n_col), L); for n < j_end - j_start: y[i_start + n] += diag[j_start + n] * x[j_start + n] *)
Definition dia_matvec (M N ndiag L : nat) (offsets : list Z) (diags : list (list K)) (x y : list K) : list K :=
  fold_left (fun y d =>
    let k := nth d offsets 0%Z in
    let i_start := Z.to_nat (Z.max 0 (- k)) in
    let j_start := Z.to_nat (Z.max 0 k) in
    let j_end := Z.min (Z.min (Z.of_nat M + k) (Z.of_nat N)) (Z.of_nat L) in
    fold_left (fun y n => acc x y (i_start + n) (j_start + n) (nth (j_start + n) (nth d diags []) 0)) (seq 0 (Z.to_nat (j_end - Z.of_nat j_start))) y) (seq 0 ndiag) y.

(** direct, 608-626: the loop over a dictionary, or the compiled function of the format *)
Definition matvec (m : matrix) (x y : list K) : result (list K) :=
  match m with
  | Dok _ _ items => Ok (fold_left (fun y t => acc x y (fst (fst t)) (snd (fst t)) (snd t)) items y)
  | Csr M _ indptr indices data => Ok (csr_matvec M indptr indices data x y)
  | Csc _ N indptr indices data => Ok (csc_matvec N indptr indices data x y)
  | Coo _ _ row col data => Ok (coo_matvec (length data) row col data x y)
  | Bsr M _ R C indptr indices data => Ok (bsr_matvec (M / R) R C indptr indices data x y)
  | Dia M N offsets L data => Ok (dia_matvec M N (length offsets) L offsets data x y)
  | Lil _ _ => Raise NotImplementedError
  end.
(** The operations that may be asked to an operator that updates its output *)
Inductive operation := Assignment | Iadd | OtherOperation.
(** direct, 601-626: y is the output before the call *)
Definition direct (m : matrix) (o : operation) (x y : list K) : result (list K) :=
  match o with
  | Assignment => matvec m x (repeat 0 (length y))
  | Iadd => matvec m x y
  | OtherOperation => Raise ValueError
  end.

(** utils.misc.product of a shape (float and integer products agree on the sizes that arise) *)
Definition size (s : list nat) : nat := fold_right Nat.mul 1%nat s.
Record sparse := Sparse { s_matrix : matrix; s_shapein : list nat; s_shapeout : list nat }.
(** __init__, 573-600; None is not a sparse matrix *)
Definition sparse_operator (m : option matrix) (shapein shapeout : option (list nat)) : result sparse :=
  match m with
  | None | Some (Lil _ _) => Raise TypeError
  | Some m =>
      let (M, N) := mshape m in
      shapein <- match shapein with Some s => if (size s =? N)%nat then Ok s else Raise ValueError | None => Ok [N] end ;;
      shapeout <- match shapeout with Some s => if (size s =? M)%nat then Ok s else Raise ValueError | None => Ok [M] end ;;
      Ok (Sparse m shapein shapeout)
  end.

(** matrix.transpose() of SciPy for the formats whose arrays are only relabelled (None for bsr and dia, which are rearranged by code that is not in the repository). *)
Definition transpose (m : matrix) : option matrix :=
  match m with
  | Csr M N indptr indices data => Some (Csc N M indptr indices data)
  | Csc M N indptr indices data => Some (Csr N M indptr indices data)
  | Coo M N row col data => Some (Coo N M col row data)
  | Dok M N items => Some (Dok N M (map (fun t => (snd (fst t), fst (fst t), snd t)) items))
  | Lil M N => Some (Lil N M)
  | Bsr _ _ _ _ _ _ _ | Dia _ _ _ _ _ => None
  end.
(** The rule 'T' (594) and _copy_reverse (core.py, 4797-4838), that gives to the new operator the shapes of the old one, swapped; [transposed] is s.matrix.transpose(). *)
Definition transposed_operator (transposed : matrix) (s : sparse) : result sparse :=
  t <- sparse_operator (Some transposed) None None ;; Ok (Sparse (s_matrix t) (s_shapeout s) (s_shapein s)).

(** The product of the number a, that is not zero, and the operator s: core.py, __mul__ (1480-1499) and __rmul__ (1501-1515), then CompositionOperator([h, s]), whose _apply_rule_homothety_linear (2450-2490) calls the rule
    (s, h) -> SparseOperator(h * s.matrix) of linear.py, 595-599, unless the number is one.  There h * matrix is Operator.__mul__ again, whose asoperator(matrix) (4886) is SparseOperator(matrix).  Each of these calls costs one unit
    of fuel; None if the fuel is exhausted.  [is_one] is the comparison scalar == 1. *)
Fixpoint scalar_times (is_one : K -> bool) (fuel : nat) (a : K) (s : sparse) : option (result sparse) :=
  match fuel with
  | O => None
  | S fuel =>
      if is_one a then Some (Ok s) else
      match sparse_operator (Some (s_matrix s)) None None with (* asoperator *)
      | Raise e => Some (Raise e)
      | Ok s' =>
          match scalar_times is_one fuel a s' with
          | None => None
          | Some (Raise e) => Some (Raise e)
          | Some (Ok _) => Some (rbind (sparse_operator None None None) Ok) (* SparseOperator of an operator *)
          end
      end
  end.
End Sparse.
Arguments matrix K : clear implicits.
Arguments sparse K : clear implicits.
