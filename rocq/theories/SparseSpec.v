(** What the sparse storages mean, from the documentation of scipy.sparse, independently of the products. *)
From Verif Require Import Base Algebra SparseModel.

Section Spec.
Context {K : cring}.
Local Open Scope cr_scope.

(** The element (i, j) of the dense matrix (toarray): elements given several times are added up.
    - csr: the columns of row i are indices[indptr[i]:indptr[i+1]], its values data[indptr[i]:indptr[i+1]]; csc: the same with rows and columns exchanged;
    - coo: A[row[n], col[n]] = data[n];
    - bsr: as csr, for blocks of R x C elements;
    - dia: data[d, j] is on the diagonal offsets[d] (j - i) and on the column j;
    - dok: a dictionary. *)
Definition entry (m : matrix K) (i j : nat) : K :=
  match m with
  | Csr _ _ indptr indices data => lsum (map (fun n => if (nth n indices 0 =? j)%nat then nth n data 0 else 0) (range (nth i indptr 0%nat) (nth (S i) indptr 0%nat)))
  | Csc _ _ indptr indices data => lsum (map (fun n => if (nth n indices 0 =? i)%nat then nth n data 0 else 0) (range (nth j indptr 0%nat) (nth (S j) indptr 0%nat)))
  | Coo _ _ row col data => lsum (map (fun n => if (nth n row 0 =? i)%nat && (nth n col 0 =? j)%nat then nth n data 0 else 0) (seq 0 (length data)))
  | Bsr _ _ R C indptr indices data =>
      lsum (map (fun n => if (nth n indices 0 =? j / C)%nat then nth (R * C * n + (C * (i mod R) + j mod C)) data 0 else 0) (range (nth (i / R) indptr 0%nat) (nth (S (i / R)) indptr 0%nat)))
  | Dia _ _ offsets L data => lsum (map (fun d => if (nth d offsets 0%Z =? Z.of_nat j - Z.of_nat i)%Z && (j <? L)%nat then nth j (nth d data []) 0 else 0) (seq 0 (length offsets)))
  | Dok _ _ items => match find (fun t => (fst (fst t) =? i)%nat && (snd (fst t) =? j)%nat) items with Some t => snd t | None => 0 end
  | Lil _ _ => 0
  end.

(** The storages that SciPy's check_format accepts *)
Definition compressed (rows cols : nat) (indptr indices : list nat) (blocks : nat) : Prop :=
  length indptr = S rows /\ (forall i, i < rows -> nth i indptr 0 <= nth (S i) indptr 0)%nat /\ (nth rows indptr 0 <= length indices)%nat /\ length indices = blocks /\ Forall (fun j => j < cols) indices.
Definition wf (m : matrix K) : Prop :=
  match m with
  | Csr M N indptr indices data => compressed M N indptr indices (length data)
  | Csc M N indptr indices data => compressed N M indptr indices (length data)
  | Coo M N row col data => length row = length data /\ length col = length data /\ Forall (fun i => i < M) row /\ Forall (fun j => j < N) col
  | Bsr M N R C indptr indices data => exists p q n, 0 < R /\ 0 < C /\ M = (R * p)%nat /\ N = (C * q)%nat /\ length data = (R * C * n)%nat /\ compressed p q indptr indices n
  | Dia M N offsets L data => length data = length offsets /\ Forall (fun d => length d = L) data
  | Dok M N items => NoDup (map fst items) /\ Forall (fun t => fst (fst t) < M /\ snd (fst t) < N) items
  | Lil _ _ => False
  end.

(** The product of the matrix of M rows and N columns by x: at the row i, the sum of the entries (i, j) times x[j] *)
Definition times (m : matrix K) (x : list K) (i : nat) : K := sum (snd (mshape m)) (fun j => entry m i j * nth j x 0).
(** t is the transpose of m *)
Definition transposes (m t : matrix K) : Prop := mshape t = (snd (mshape m), fst (mshape m)) /\ forall i j, i < fst (mshape m) -> j < snd (mshape m) -> entry t j i = entry m i j.
End Spec.
