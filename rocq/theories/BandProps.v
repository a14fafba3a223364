(** C24: banded operators. *)
From Verif Require Import Base Algebra DiagModel BandModel BandSpec BandProofs.
Local Open Scope nat_scope.

Definition ZD : dring := {| dcar := Zring; deq := Z.eqb; deq_ok := Z.eqb_eq |}.
Definition zid (x : ZD) : ZD := x.

(** A TridiagonalOperator that could be made computes the product by its matrix. *)
Theorem C24_tridiagonal : forall (K : dring) conj (diag sub : list K) sup t x, make_tri conj diag sub sup = Ok t -> length x = length diag ->
  t_diag t = diag /\ t_sub t = sub /\ t_sup t = match sup with Some s => s | None => map conj sub end /\
  exists out, tri_direct t x = Ok out /\ product (length diag) (tri_matrix t) x out.
Proof.
  intros K conj diag sub sup t x E L. apply make_tri_ok in E as (W & E1 & E2 & E3). repeat split; auto. rewrite <- L. apply tri_direct_ok; congruence.
Qed.
(** It is refused if the size of an off-diagonal is neither 1 nor that of the diagonal minus one. *)
Theorem C24_tridiagonal_sizes : forall (K : dring) conj (diag sub sup : list K),
  (exists t, make_tri conj diag sub (Some sup) = Ok t) <->
  (length sub = 1 \/ S (length sub) = length diag) /\ (length sup = 1 \/ S (length sup) = length diag).
Proof.
  intros K conj diag sub sup. split.
  - intros [t E]. apply make_tri_ok in E as ([A B] & E1 & E2 & E3). rewrite E1, E2 in A. rewrite E1, E3 in B. auto.
  - intros [A B]. eexists. apply make_tri_total; auto.
Qed.
Example C24_tridiagonal_example : exists t, make_tri (K := ZD) zid [1; 2; 3]%Z [4; 5]%Z (Some [6; 7]%Z) = Ok t /\ tri_direct t [1; 10; 100]%Z = Ok [61; 724; 350]%Z /\
  (exists u, make_tri (K := ZD) zid [1; 2; 3]%Z [4]%Z None = Ok u /\ tri_direct u [1; 10; 100]%Z = Ok [41; 424; 340]%Z).
Proof. eexists. split; [reflexivity|]. split; [reflexivity|]. eexists. split; reflexivity. Qed.

(** Transpose, conjugate and adjoint. *)
Theorem C24_tridiagonal_transpose : forall (K : dring) (conj : K -> K) (t : tri K), tri_ok t ->
  exists u, tri_T conj t = Ok u /\ tri_ok u /\ length (t_diag u) = length (t_diag t) /\ forall i j, tri_matrix u i j = tri_matrix t j i.
Proof. intros K. apply tri_T_ok. Qed.
Theorem C24_tridiagonal_conjugate : forall (K : dring) (conj : K -> K) (t : tri K), conj r0 = r0 -> tri_ok t ->
  exists u, tri_C conj t = Ok u /\ tri_ok u /\ length (t_diag u) = length (t_diag t) /\ forall i j, tri_matrix u i j = conj (tri_matrix t i j).
Proof. intros K. apply tri_C_ok. Qed.
Theorem C24_tridiagonal_adjoint : forall (K : dring) (conj : K -> K) (t : tri K), conj r0 = r0 -> tri_ok t ->
  exists u, tri_H conj t = Ok u /\ tri_ok u /\ length (t_diag u) = length (t_diag t) /\ forall i j, tri_matrix u i j = conj (tri_matrix t j i).
Proof. intros K. apply tri_H_ok. Qed.
(** Finding: the method that applies the transpose in place leaves the output as it was. *)
Theorem C24_transpose_method_refuted : exists (t : tri ZD) x out, tri_ok t /\ length x = length (t_diag t) /\ length out = length (t_diag t) /\
  ~ exists res, tri_transpose_method t x out = Ok res /\ product (length (t_diag t)) (fun i j => tri_matrix t j i) x res.
Proof.
  exists (T (K := ZD) [1; 2]%Z [3]%Z [4]%Z), [1; 1]%Z, [0; 0]%Z. repeat split; cbn; auto. intros (res & E & _ & H). injection E as <-. specialize (H 0 ltac:(lia)). vm_compute in H. discriminate.
Qed.
(** The flags. *)
Theorem C24_tridiagonal_symmetric : forall (K : dring) (t : tri K) i j, tri_ok t -> tri_symmetric t = true -> i < length (t_diag t) -> j < length (t_diag t) ->
  tri_matrix t i j = tri_matrix t j i.
Proof. intros K. apply tri_symmetric_ok. Qed.
Theorem C24_tridiagonal_hermitian : forall (K : dring) (conj : K -> K) (t : tri K) i j, conj r0 = r0 -> (forall a, conj (conj a) = a) ->
  tri_ok t -> tri_hermitian conj t = true -> i < length (t_diag t) -> j < length (t_diag t) -> tri_matrix t i j = conj (tri_matrix t j i).
Proof. intros K. apply tri_hermitian_ok. Qed.
Example C24_tridiagonal_transpose_example : exists u, tri_T zid (T (K := ZD) [1; 2; 3]%Z [4; 5]%Z [6; 7]%Z) = Ok u /\ tri_direct u [1; 10; 100]%Z = Ok [41; 526; 370]%Z /\
  tri_symmetric (T (K := ZD) [1; 2; 3]%Z [4; 5]%Z [6; 7]%Z) = false /\ tri_symmetric (T (K := ZD) [1; 2; 3]%Z [4]%Z [4; 4]%Z) = true /\ tri_hermitian zid (T (K := ZD) [1; 2; 3]%Z [4]%Z [4; 4]%Z) = true.
Proof. eexists. repeat split; reflexivity. Qed.

(** todense returns the matrix when the off-diagonals are not scalars. *)
Theorem C24_todense_partial : forall (K : dring) (t : tri K), S (length (t_sub t)) = length (t_diag t) -> S (length (t_sup t)) = length (t_diag t) ->
  exists m, tri_todense t = Ok m /\ forall i j, i < length (t_diag t) -> j < length (t_diag t) -> m i j = tri_matrix t i j.
Proof. intros K. apply todense_ok. Qed.
Example C24_todense_example : exists m, tri_todense (T (K := ZD) [1; 2; 3]%Z [4; 5]%Z [6; 7]%Z) = Ok m /\
  map (fun i => map (m i) [0; 1; 2]) [0; 1; 2] = [[1; 6; 0]; [4; 2; 7]; [0; 5; 3]]%Z.
Proof. eexists. split; reflexivity. Qed.
(** Finding: with a scalar, it raises ValueError. *)
Theorem C24_todense_refuted : exists t : tri ZD, tri_ok t /\ tri_todense t = Raise ValueError.
Proof. exists (T (K := ZD) [1; 2; 3]%Z [4]%Z [6; 7]%Z). split; [split; cbn; auto|reflexivity]. Qed.

(** toband keeps the matrix: a BandOperator, or a SymmetricBandOperator in lower storage. *)
Theorem C24_toband : forall (K : dring) (t : tri K), tri_ok t -> let n := length (t_diag t) in 0 < n ->
  match toband t with
  | Ok (inl b) => band_ok b n /\ b_ku b = 1 /\ forall i j, i < n -> j < n -> band_matrix b i j = tri_matrix t i j
  | Ok (inr ab) => Forall (fun r => length r = n) ab /\ ab <> [] /\ forall i j, i < n -> j < n -> lower_matrix ab i j = tri_matrix t i j
  | Raise _ => False
  end.
Proof. intros K. apply toband_ok. Qed.
Example C24_toband_example : toband (T (K := ZD) [1; 2; 3]%Z [4; 5]%Z [6; 7]%Z) = Ok (inl (B (K := ZD) [[0; 6; 7]; [1; 2; 3]; [4; 5; 0]]%Z 1 1)) /\
  toband (T (K := ZD) [1; 2; 3]%Z [4]%Z [4; 4]%Z) = Ok (inr [[1; 2; 3]; [4; 4; 0]]%Z).
Proof. split; reflexivity. Qed.

(** A BandOperator computes the product by the matrix stored in ab, if it has one superdiagonal or no subdiagonal. *)
Theorem C24_band_partial : forall (K : dring) (b : band K) n x, band_ok b n -> (b_ku b = 1 \/ b_kl b = 0) -> length x = n ->
  exists out, band_direct b x = Ok out /\ product n (band_matrix b) x out.
Proof. intros K. apply band_direct_ok. Qed.
Example C24_band_example : band_direct (B (K := ZD) [[0; 1; 2; 3]; [4; 5; 6; 7]; [8; 9; 10; 0]; [11; 12; 0; 0]]%Z 2 1) [1; 10; 100; 1000]%Z = Ok [14; 258; 3701; 8120]%Z /\
  band_direct (upper_triangular (K := ZD) [[0; 0; 1; 2]; [0; 3; 4; 5]; [6; 7; 8; 9]]%Z) [1; 10; 100; 1000]%Z = Ok [136; 2470; 5800; 9000]%Z.
Proof. split; reflexivity. Qed.
(** An UpperTriangularOperator has no subdiagonal. *)
Theorem C24_upper_triangular : forall (K : dring) (ab : list (list K)) n x, ab <> [] -> Forall (fun r => length r = n) ab -> length x = n ->
  exists out, band_direct (upper_triangular ab) x = Ok out /\ product n (band_matrix (upper_triangular ab)) x out.
Proof.
  intros K ab n x NE F L. apply band_direct_ok; auto. split; auto. destruct ab; [congruence|]. unfold upper_triangular. cbn [b_ab b_kl b_ku length]. lia.
Qed.
(** Finding: with two superdiagonals, the subdiagonals are misplaced. *)
Theorem C24_band_refuted : exists (b : band ZD) n x out, band_ok b n /\ length x = n /\ band_direct b x = Ok out /\ ~ product n (band_matrix b) x out.
Proof.
  exists (B (K := ZD) [[0; 0; 0]; [0; 0; 0]; [0; 0; 0]; [1; 1; 0]]%Z 1 2), 3, [1; 1; 1]%Z. eexists.
  split; [split; [reflexivity|repeat constructor]|]. split; [reflexivity|]. split; [reflexivity|]. intros [_ H]. specialize (H 1 ltac:(lia)). vm_compute in H. discriminate.
Qed.
(** Finding: a LowerTriangularOperator with a subdiagonal always raises ValueError. *)
Theorem C24_lower_triangular_refuted : forall (K : dring) (ab : list (list K)) n x, 1 < length ab -> Forall (fun r => length r = n) ab -> length x = n -> 1 < n ->
  band_direct (lower_triangular ab) x = Raise ValueError.
Proof.
  intros K ab n x HA F L Hn. unfold lower_triangular, band_direct. destruct (row_ok ab n 0 F) as [-> L0]; [lia|]. cbn [rbind].
  destruct (bmul_eq (nth 0 ab []) x) as (o & -> & Lo & _); [congruence|]. cbn [seq fold_left]. replace (length ab - 1) with (S (length ab - 2)) by lia. cbn [seq fold_left].
  assert (band_lower ab x (Ok o) 0 = Raise ValueError) as ->.
  { unfold band_lower. cbn [rbind]. destruct (row_ok ab n 1 F) as [E1 L1]; [lia|]. change (0 + 1) with 1. rewrite E1. cbn [rbind]. unfold add_from, iadd, from. cbn [upto Nat.eqb bmul length map2 combine map rbind skipn].
    destruct (Nat.eqb_spec (length o) 0); [lia|]. reflexivity. }
  generalize (seq 1 (length ab - 2)). induction l; cbn; auto.
Qed.
(** Finding: the transpose of a BandOperator always raises AttributeError. *)
Theorem C24_band_transpose_refuted : forall (K : dring) (b : band K) x, band_transpose b x = Raise AttributeError.
Proof. reflexivity. Qed.
(** The transposed storage is right. *)
Theorem C24_rab : forall (K : dring) (b : band K) n, band_ok b n -> band_ok (B (band_rab b) (b_ku b) (b_kl b)) n /\
  forall i j, i < n -> j < n -> band_matrix (B (band_rab b) (b_ku b) (b_kl b)) i j = band_matrix b j i.
Proof. intros K. apply band_rab_ok. Qed.
Example C24_rab_example : band_rab (B (K := ZD) [[0; 1; 2; 3]; [4; 5; 6; 7]; [8; 9; 10; 0]; [11; 12; 0; 0]]%Z 2 1) = [[0; 0; 11; 12]; [0; 8; 9; 10]; [4; 5; 6; 7]; [1; 2; 3; 0]]%Z.
Proof. reflexivity. Qed.

(** A SymmetricBandOperator computes the product by the symmetric matrix whose lower part is stored in ab. *)
Theorem C24_symmetric_band : forall (K : dring) (ab : list (list K)) lower n x, Forall (fun r => length r = n) ab -> ab <> [] -> length x = n ->
  exists out, symband_direct ab lower x = Ok out /\ product n (lower_matrix ab) x out.
Proof. intros K. apply symband_ok. Qed.
Example C24_symmetric_band_example : symband_direct (K := ZD) [[1; 2; 3]; [4; 5; 0]]%Z true [1; 10; 100]%Z = Ok [41; 524; 350]%Z.
Proof. reflexivity. Qed.
(** Finding: also if it is told that the upper part is stored. *)
Theorem C24_symmetric_band_upper_refuted : exists (ab : list (list ZD)) n x out, Forall (fun r => length r = n) ab /\ length x = n /\
  symband_direct ab false x = Ok out /\ ~ product n (upper_matrix ab) x out.
Proof.
  exists [[0; 4; 5]; [1; 2; 3]]%Z, 3, [1; 10; 100]%Z. eexists. split; [repeat constructor|]. split; [reflexivity|]. split; [reflexivity|].
  intros [_ H]. specialize (H 0 ltac:(lia)). vm_compute in H. discriminate.
Qed.

Print Assumptions C24_tridiagonal.
Print Assumptions C24_tridiagonal_sizes.
Print Assumptions C24_tridiagonal_transpose.
Print Assumptions C24_tridiagonal_conjugate.
Print Assumptions C24_tridiagonal_adjoint.
Print Assumptions C24_tridiagonal_symmetric.
Print Assumptions C24_tridiagonal_hermitian.
Print Assumptions C24_transpose_method_refuted.
Print Assumptions C24_todense_partial.
Print Assumptions C24_todense_refuted.
Print Assumptions C24_toband.
Print Assumptions C24_band_partial.
Print Assumptions C24_upper_triangular.
Print Assumptions C24_band_refuted.
Print Assumptions C24_lower_triangular_refuted.
Print Assumptions C24_band_transpose_refuted.
Print Assumptions C24_rab.
Print Assumptions C24_symmetric_band.
Print Assumptions C24_symmetric_band_upper_refuted.
