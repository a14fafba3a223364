(** C35: todense gives the matrix of the operator. *)
From Coq Require Import QArith Qcanon.
From Verif Require Import Base Algebra Ofield BlockModel BlockSpec DiagModel ShapeModel ShapeSpec ShapeCompose RedModel RedProofs TodModel TodSpec TodProofs.
Local Open Scope nat_scope.

Section Theorems.
Context (K : cring) (op : mop K) (si so : shape) (F : list K -> list K).
Context (C : computes op si so F) (A : admits (p_shapes op) si so).
(** the contents of the uninitialised arrays *)
Context (junk : nat -> list K) (junk_o junk_u : list K) (J : forall i, length (junk i) = prod so) (Jo : length junk_o = prod so) (Ju : length junk_u = Nat.max (prod si) (prod so)).

(** The columns are the images of the basis, with the in-place mode or without. *)
Theorem C35_columns a b inplace : enough (p_shapes op) a b si so ->
  exists d, todense op a b inplace junk junk_o junk_u = Ok (prod so, prod si, d) /\
  forall i j, i < prod si -> j < prod so -> entry d j i = p_cast op (nth j (F (unit_vector (prod si) i)) r0).
Proof. intros E. eexists. split; [apply (todense_ok op si so F C); auto; apply enough_ok; assumption|]. intros i j Hi Hj. apply (entry_ok op si so F C); assumption. Qed.
(** The same result in both modes *)
Theorem C35_inplace a b : enough (p_shapes op) a b si so -> todense op a b true junk junk_o junk_u = todense op a b false junk junk_o junk_u.
Proof. intros E. rewrite !(todense_ok op si so F C) by (auto; apply enough_ok; assumption). reflexivity. Qed.
(** The matrix multiplies the flattened input, for a linear operator whose coefficients are numbers of its dtype. *)
Theorem C35_matrix a b inplace d m n : enough (p_shapes op) a b si so -> is_linear (prod si) F -> (forall i j, i < prod si -> p_cast op (nth j (F (unit_vector (prod si) i)) r0) = nth j (F (unit_vector (prod si) i)) r0) ->
  todense op a b inplace junk junk_o junk_u = Ok (m, n, d) ->
  m = prod so /\ n = prod si /\ forall x j, length x = n -> j < m -> nth j (F x) r0 = sum n (fun i => rmul (entry d j i) (nth i x r0)).
Proof.
  intros E Li Ca H. rewrite (todense_ok op si so F C) in H by (auto; apply enough_ok; assumption). injection H as <- <- <-. split; [reflexivity|]. split; [reflexivity|]. intros x j Lx Hj.
  rewrite (linear_matrix (prod si) (prod so) F Li); auto; [|apply C]. apply sum_ext. intros i Hi. rewrite (entry_ok op si so F C) by assumption. rewrite Ca by exact Hi. reflexivity.
Qed.
(** In terms of arrays: the column of the index i of the input is the image of the array which is 1 there and 0 elsewhere, in the C order. *)
Theorem C35_order (G : array K -> array K) a b inplace d m n : enough (p_shapes op) a b si so -> (forall x, ashape x = si -> ashape (G x) = so /\ F (ravel x) = ravel (G x)) ->
  todense op a b inplace junk junk_o junk_u = Ok (m, n, d) ->
  forall i j, inside si i -> inside so j -> entry d (flat so j) (flat si i) = p_cast op (aval (G (Arr si (fun k => if list_eq_dec Nat.eq_dec k i then r1 else r0))) j).
Proof.
  intros E HG H i j Hi Hj. rewrite (todense_ok op si so F C) in H by (auto; apply enough_ok; assumption). injection H as <- <- <-. rewrite (entry_ok op si so F C) by (apply flat_lt; assumption).
  set (x := Arr si _). destruct (HG x eq_refl) as [Sg Vg]. assert (ravel x = unit_vector (prod si) (flat si i)) as Rx.
  { rewrite <- (ravel_basis si i Hi). unfold ravel. cbn [ashape aval x]. apply map_ext. intros k. unfold shape_eqb. destruct (list_eq_dec Nat.eq_dec k i); reflexivity. }
  rewrite <- Rx, Vg. f_equal. rewrite <- Sg at 1. apply nth_ravel. rewrite Sg. exact Hj.
Qed.
End Theorems.
(** Without shape for the input, it raises. *)
Theorem C35_unknown (K : cring) (op : mop K) inplace junk junk_o junk_u : kind_in (p_shapes op) <> Explicit -> todense op None None inplace junk junk_o junk_u = Raise ValueError.
Proof. intros N. unfold todense. rewrite unknown by exact N. reflexivity. Qed.

Section Pairs.
Context (K : cring) (op1 op2 : mop K) (s1 s2 : shape) (F1 F2 : list K -> list K).
Context (A1 : admits (p_shapes op1) s1 s2).
Context (junk : nat -> list K) (junk_o junk_u : list K) (J : forall i, length (junk i) = prod s2) (Jo : length junk_o = prod s2) (Ju : length junk_u = Nat.max (prod s1) (prod s2)).
(** Two linear operators which have the same matrix are equal. *)
Theorem C35_same : computes op1 s1 s2 F1 -> computes op2 s1 s2 F2 -> admits (p_shapes op2) s1 s2 -> is_linear (prod s1) F1 -> is_linear (prod s1) F2 -> exact_for op1 F1 (prod s1) -> exact_for op2 F2 (prod s1) ->
  todense op1 (Some s1) (Some s2) false junk junk_o junk_u = todense op2 (Some s1) (Some s2) false junk junk_o junk_u -> forall x, length x = prod s1 -> F1 x = F2 x.
Proof.
  intros C1 C2 A2 L1 L2 E1 E2 H x Lx. assert (enough (p_shapes op1) (Some s1) (Some s2) s1 s2) as N1 by (split; left; reflexivity). assert (enough (p_shapes op2) (Some s1) (Some s2) s1 s2) as N2 by (split; left; reflexivity).
  destruct (C35_columns K op1 s1 s2 F1 C1 A1 junk junk_o junk_u J Jo Ju _ _ false N1) as (d & D1 & _). pose proof D1 as D2. rewrite H in D2.
  destruct (C35_matrix K op1 s1 s2 F1 C1 A1 junk junk_o junk_u J Jo Ju _ _ false d _ _ N1 L1 E1 D1) as (_ & _ & M1).
  destruct (C35_matrix K op2 s1 s2 F2 C2 A2 junk junk_o junk_u J Jo Ju _ _ false d _ _ N2 L2 E2 D2) as (_ & _ & M2).
  apply nth_ext with (d := r0) (d' := r0); [rewrite (proj1 C1), (proj1 C2) by exact Lx; reflexivity|]. intros j Hj. rewrite (proj1 C1) in Hj by exact Lx. rewrite M1, M2 by assumption. reflexivity.
Qed.
(** The matrix of a product is the product of the matrices. *)
Theorem C35_product (op3 : mop K) s3 a1 b1 p1 d1 m1 n1 a2 b2 p2 d2 m2 n2 a3 b3 p3 d3 m3 n3 junk2 junk_o2 junk_u2 junk3 junk_o3 junk_u3 : computes op1 s1 s2 F1 -> computes op2 s2 s3 F2 -> computes op3 s1 s3 (fun x => F2 (F1 x)) ->
  is_linear (prod s2) F2 -> exact_for op1 F1 (prod s1) -> exact_for op2 F2 (prod s2) -> exact_for op3 (fun x => F2 (F1 x)) (prod s1) ->
  admits (p_shapes op2) s2 s3 -> admits (p_shapes op3) s1 s3 -> enough (p_shapes op1) a1 b1 s1 s2 -> enough (p_shapes op2) a2 b2 s2 s3 -> enough (p_shapes op3) a3 b3 s1 s3 ->
  (forall i, length (junk2 i) = prod s3) -> length junk_o2 = prod s3 -> length junk_u2 = Nat.max (prod s2) (prod s3) ->
  (forall i, length (junk3 i) = prod s3) -> length junk_o3 = prod s3 -> length junk_u3 = Nat.max (prod s1) (prod s3) ->
  todense op1 a1 b1 p1 junk junk_o junk_u = Ok (m1, n1, d1) -> todense op2 a2 b2 p2 junk2 junk_o2 junk_u2 = Ok (m2, n2, d2) -> todense op3 a3 b3 p3 junk3 junk_o3 junk_u3 = Ok (m3, n3, d3) ->
  forall i j, i < prod s1 -> j < prod s3 -> entry d3 j i = sum (prod s2) (fun k => rmul (entry d2 j k) (entry d1 k i)).
Proof.
  intros C1 C2 C3 L2 E1 E2 E3 A2 A3 N1 N2 N3 J2 Jo2 Ju2 J3 Jo3 Ju3 D1 D2 D3 i j Hi Hj.
  destruct (C35_columns K op1 s1 s2 F1 C1 A1 junk junk_o junk_u J Jo Ju _ _ p1 N1) as (d & D & V1). rewrite D1 in D. injection D as -> -> ->.
  destruct (C35_matrix K op2 s2 s3 F2 C2 A2 junk2 junk_o2 junk_u2 J2 Jo2 Ju2 _ _ p2 d2 _ _ N2 L2 E2 D2) as (-> & -> & M2).
  destruct (C35_columns K op3 s1 s3 _ C3 A3 junk3 junk_o3 junk_u3 J3 Jo3 Ju3 _ _ p3 N3) as (d0 & D & V3). rewrite D3 in D. injection D as -> -> ->.
  rewrite V3 by assumption. rewrite E3 by exact Hi. rewrite M2; [|apply (proj1 C1), unit_length|exact Hj]. apply sum_ext. intros k Hk. rewrite V1, E1 by assumption. reflexivity.
Qed.
(** The matrix of the adjoint is the transpose. *)
Theorem C35_transpose a1 b1 p1 d1 m1 n1 a2 b2 p2 d2 m2 n2 junk2 junk_o2 junk_u2 : computes op1 s1 s2 F1 -> computes op2 s2 s1 F2 -> admits (p_shapes op2) s2 s1 ->
  exact_for op1 F1 (prod s1) -> exact_for op2 F2 (prod s2) ->
  (forall x y, length x = prod s1 -> length y = prod s2 -> ldot (F1 x) y = ldot x (F2 y)) -> enough (p_shapes op1) a1 b1 s1 s2 -> enough (p_shapes op2) a2 b2 s2 s1 ->
  (forall i, length (junk2 i) = prod s1) -> length junk_o2 = prod s1 -> length junk_u2 = Nat.max (prod s2) (prod s1) ->
  todense op1 a1 b1 p1 junk junk_o junk_u = Ok (m1, n1, d1) -> todense op2 a2 b2 p2 junk2 junk_o2 junk_u2 = Ok (m2, n2, d2) ->
  forall i j, i < prod s1 -> j < prod s2 -> entry d2 i j = entry d1 j i.
Proof.
  intros C1 C2 A2 E1 E2 H N1 N2 J2 Jo2 Ju2 D1 D2 i j Hi Hj.
  destruct (C35_columns K op1 s1 s2 F1 C1 A1 junk junk_o junk_u J Jo Ju _ _ p1 N1) as (d & D & V1). rewrite D1 in D. injection D as -> -> ->.
  destruct (C35_columns K op2 s2 s1 F2 C2 A2 junk2 junk_o2 junk_u2 J2 Jo2 Ju2 _ _ p2 N2) as (d0 & D & V2). rewrite D2 in D. injection D as -> -> ->.
  rewrite V1, V2, E1, E2 by assumption. pose proof (H (unit_vector (prod s1) i) (unit_vector (prod s2) j) (unit_length _ _) (unit_length _ _)) as E.
  rewrite (ldot_unit_r (prod s2) j), (ldot_unit_l (prod s1) i) in E by (auto; (apply (proj1 C1) || apply (proj1 C2)); apply unit_length). symmetry. exact E.
Qed.
End Pairs.

(** An operator without dtype which halves its input *)
Definition sq_shapes : oper := O None None (Some id_shape) (Some id_shape) (fun _ => true) (fun _ => true) true.
Definition pointwise {K : Type} (f : K -> K) (c : K -> K) : mop K :=
  P sq_shapes (fun _ _ v o => (v, map f v)) (fun _ _ u => map f u) true false c.
Definition qz (z : Z) : Qc := Q2Qc (inject_Z z).
Definition trunc (q : Qc) : Qc := qz (Z.quot (Qnum (this q)) (Zpos (Qden (this q)))).
Example C35_case : computes (K := Zring) (pointwise (Z.mul 3) (fun v => v)) [2; 2] [2; 2] (map (Z.mul 3)) /\ admits sq_shapes [2; 2] [2; 2] /\ enough sq_shapes (Some [2; 2]) None [2; 2] [2; 2] /\
  todense (K := Zring) (pointwise (Z.mul 3) (fun v => v)) (Some [2]) None true (fun _ => [7; 7]%Z) [7; 7]%Z [7; 7]%Z = Ok (2, 2, [[3; 0]; [0; 3]]%Z).
Proof.
  split; [|split; [repeat split|split; [|reflexivity]]].
  - split; [intros v L; rewrite map_length; exact L|]. split; [intros; reflexivity|]. intros _ u L. cbn [p_alias pointwise]. rewrite map_length. split; [reflexivity|]. rewrite firstn_map. reflexivity.
  - split; [left; reflexivity|right; split; [reflexivity|right; split; reflexivity]].
Qed.
Theorem C35_integer_refuted : let op := pointwise (K := Qcring) (Qcmult (Q2Qc (1#2))) trunc in
  is_linear (K := Qcring) 1 (map (Qcmult (Q2Qc (1#2)))) /\
  exists d, todense op (Some [1]) None false (fun _ => [qz 0]) [qz 0] [qz 0] = Ok (1, 1, d) /\ this (entry (K := Qcring) d 0 0) = 0%Q.
Proof.
  split.
  - split.
    + intros x y Lx Ly. destruct x as [|a [|]], y as [|b [|]]; try discriminate. cbn. f_equal. apply Qcmult_plus_distr_r.
    + intros c x Lx. destruct x as [|a [|]]; try discriminate. cbn. f_equal. rewrite !Qcmult_assoc. f_equal. apply Qcmult_comm.
  - eexists. split; [reflexivity|]. vm_compute. reflexivity.
Qed.

Print Assumptions C35_columns. Print Assumptions C35_inplace. Print Assumptions C35_matrix. Print Assumptions C35_order. Print Assumptions C35_unknown. Print Assumptions C35_same. Print Assumptions C35_product.
Print Assumptions C35_transpose. Print Assumptions C35_integer_refuted.
