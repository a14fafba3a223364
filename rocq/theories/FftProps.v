(** C40: convolutions and Fourier transforms. *)
From Verif Require Import Base Algebra Dft DftExamples DftComplex FftModel FftSpec FftProofs.
Local Open Scope nat_scope.

(** A convolution operator by a real kernel can be made if the kernel fits in the input. *)
Theorem C40_make : forall (K : cfield) (w : nat -> K) s ks junk ker, (exists op, make_real w s ks junk ker = Ok op) <-> fits s ks.
Proof.
  intros K w s ks junk ker. unfold make_real. split.
  - intros [op E]. destruct (Nat.eqb_spec (length s) (length ks)) as [L|]; [cbn [negb] in E|discriminate]. destruct (existsb _ _) eqn:B; [discriminate|]. clear E.
    revert ks L B. induction s as [|a s IH]; intros [|k ks] L B; cbn in L; try discriminate; [constructor|]. cbn in B. apply orb_false_iff in B as [B1 B2].
    constructor; [apply Nat.ltb_ge; exact B1|apply IH; auto].
  - intros F. rewrite (fits_length s ks F), Nat.eqb_refl. cbn [negb]. assert (existsb (fun p => snd p <? fst p) (combine ks s) = false) as ->; [|eauto].
    induction F; cbn; auto. apply orb_false_iff. split; auto. apply Nat.ltb_ge. auto.
Qed.
(** It computes the periodic convolution by the centred kernel, for any number of dimensions. *)
Theorem C40_convolution : forall (K : cfield) (w : nat -> K) s ks junk ker op junk' x, roots w s -> real ks ker -> make_real w s ks junk ker = Ok op -> real s x ->
  same s (rc_direct w s junk' op x) (convolution s ks ker x).
Proof.
  intros K w s ks junk ker op junk' x R RK E X i Hi. destruct (make_reps w s R ks junk ker op RK E) as (F & G & _).
  rewrite (direct_ok w s R op _ junk' x G X i Hi). apply cconv_convolution; auto.
Qed.
(** With a complex kernel too. *)
Theorem C40_complex_convolution : forall (K : cfield) (w : nat -> K) s ks ker x, roots w s -> fits s ks -> same s (complex_direct w s ks ker x) (convolution s ks ker x).
Proof. intros K w s ks ker x R F. apply complex_ok; auto. Qed.
(** Its transpose is the correlation by the centred kernel. *)
Theorem C40_correlation : forall (K : cfield) (w : nat -> K) s ks junk ker op junk' x, roots w s -> real ks ker -> make_real w s ks junk ker = Ok op -> real s x ->
  same s (rc_direct w s junk' (rc_T op) x) (correlation s ks ker x).
Proof.
  intros K w s ks junk ker op junk' x R RK E X i Hi. destruct (make_reps w s R ks junk ker op RK E) as (F & G & T).
  rewrite (direct_ok w s R (rc_T op) _ junk' x (T_reps w s R op _ T G) X i Hi). apply cconv_correlation; auto.
Qed.
(** For every convolution operator obtained by the rules: the transpose is the adjoint, *)
Theorem C40_transpose : forall (K : cfield) (w : nat -> K) s op junk x y, roots w s -> reachable w s op -> rc_transposed op = false -> real s x -> real s y ->
  dot s y (rc_direct w s junk op x) = dot s (rc_direct w s junk (rc_T op) y) x.
Proof.
  intros K w s op junk x y R H T X Y. destruct (reachable_reps w s R op H) as [g G]. pose proof (T_reps w s R op g T G) as GT. unfold dot.
  rewrite (total_ext w s _ (fun m => rmul (y m) (cconv (all_axes w s) g x m))).
  2:{ intros i Hi. rewrite (Y i Hi). f_equal. apply direct_ok; auto. }
  rewrite (total_ext w s (fun i => rmul (conj (rc_direct w s junk (rc_T op) y i)) (x i)) (fun j => rmul (cconv (all_axes w s) (fun i => g (negi (all_axes w s) i)) y j) (x j))).
  2:{ intros i Hi. f_equal. rewrite (direct_ok w s R (rc_T op) _ junk y GT Y i Hi). apply cconv_real; auto. apply GT. }
  apply neg_adjoint; auto.
Qed.
(** the operator multiplied by a real number, *)
Theorem C40_homothety : forall (K : cfield) (w : nat -> K) s op junk a x, roots w s -> reachable w s op -> conj a = a -> real s x ->
  same s (rc_direct w s junk (rc_homothety op a) x) (fun i => rmul a (rc_direct w s junk op x i)).
Proof.
  intros K w s op junk a x R H E X i Hi. destruct (reachable_reps w s R op H) as [g G].
  rewrite (direct_ok w s R _ _ junk x (homothety_reps w s op g a E G) X i Hi), (direct_ok w s R op g junk x G X i Hi). unfold cconv. rewrite <- bsum_mul_l. apply bsum_ext. intros. symmetry. apply rmul_assoc.
Qed.
(** sums, *)
Theorem C40_sum : forall (K : cfield) (w : nat -> K) s op1 op2 junk x, roots w s -> reachable w s op1 -> reachable w s op2 -> real s x ->
  same s (rc_direct w s junk (rc_add op1 op2) x) (fun i => radd (rc_direct w s junk op1 x i) (rc_direct w s junk op2 x i)).
Proof.
  intros K w s op1 op2 junk x R H1 H2 X i Hi. destruct (reachable_reps w s R op1 H1) as [g1 G1]. destruct (reachable_reps w s R op2 H2) as [g2 G2].
  rewrite (direct_ok w s R _ _ junk x (add_reps w s op1 op2 g1 g2 G1 G2) X i Hi), (direct_ok w s R op1 g1 junk x G1 X i Hi), (direct_ok w s R op2 g2 junk x G2 X i Hi).
  unfold cconv. rewrite <- bsum_add. apply bsum_ext. intros. apply (Rdistr_l (rth K)).
Qed.
(** products. *)
Theorem C40_product : forall (K : cfield) (w : nat -> K) s op1 op2 junk x, roots w s -> reachable w s op1 -> reachable w s op2 -> real s x ->
  same s (rc_direct w s junk (rc_cmp s op1 op2) x) (rc_direct w s junk op1 (rc_direct w s junk op2 x)).
Proof.
  intros K w s op1 op2 junk x R H1 H2 X i Hi. destruct (reachable_reps w s R op1 H1) as [g1 G1]. destruct (reachable_reps w s R op2 H2) as [g2 G2].
  rewrite (direct_ok w s R _ _ junk x (cmp_reps w s R op1 op2 g1 g2 G1 G2) X i Hi). rewrite (direct_ok w s R op1 g1 junk _ G1 (direct_real w s R op2 junk x H2 X) i Hi).
  rewrite (cconv_assoc w s R g1 g2 x i Hi). apply cconv_ext; auto. { intros j Hj. reflexivity. } intros j Hj. symmetry. apply direct_ok; auto.
Qed.
(** Such an operator is the convolution by some array g; next to a Fourier transform, it becomes a diagonal operator. *)
Theorem C40_fourier : forall (K : cfield) (w : nat -> K) s op, roots w s -> reachable w s op -> exists g, real s g /\
  (forall junk x, real s x -> same s (rc_direct w s junk op x) (circular s g x)) /\
  (forall x, same s (fun k => rmul (fst (rule_forward w s op) k) (f_direct (all_axes w s) Forward x k)) (f_direct (all_axes w s) Forward (circular s g x))) /\
  (forall y, same s (f_direct (all_axes w s) Backward (fun k => rmul (snd (rule_backward w s op) k) (y k))) (circular s g (f_direct (all_axes w s) Backward y))).
Proof.
  intros K w s op R H. destruct (reachable_reps w s R op H) as [g G]. exists g. split; [apply G|]. split; [|split].
  - intros junk x X i Hi. rewrite (circular_cconv w s g x R i Hi). apply direct_ok; auto.
  - intros x i Hi. etransitivity; [exact (forward_ok w s R op g x G i Hi)|]. cbn [f_direct]. apply fwd_ext. intros j Hj. symmetry. apply (circular_cconv w s g x R). apply (inside_index w), Hj.
  - intros y i Hi. rewrite (circular_cconv w s g _ R i Hi). apply (backward_ok w s R op g y G i Hi).
Qed.

(** The Fourier transform times its adjoint, in both orders, is the identity; the backward transform times the forward one is
    the homothety that the rules give. *)
Theorem C40_unitary : forall (K : cfield) (w : nat -> K) s x, roots w s -> let d := all_axes w s in
  same s (scaled_direct d (f_H s Forward) (f_direct d Forward x)) x /\ same s (f_direct d Forward (scaled_direct d (f_H s Forward) x)) x /\
  same s (f_direct d Backward (f_direct d Forward x)) (fun i => rmul (f_product s) (x i)) /\ same s (f_direct d Forward (f_direct d Backward x)) (fun i => rmul (f_product s) (x i)).
Proof.
  intros K w s x R. cbn zeta. pose proof (roots_ok w s R) as A. pose proof (ninv_product w s R) as N.
  assert (forall i, index s i -> Dft.inside (all_axes w s) i) as I by (intros; apply inside_index; auto). repeat split; intros i Hi; cbn [f_direct f_H].
  - unfold scaled_direct. cbn [fst snd f_direct]. rewrite bwd_fwd, norm_ax, rmul_assoc, N, rmul_1_l; auto.
  - unfold scaled_direct. cbn [fst snd f_direct]. rewrite fwd_scale, fwd_bwd, norm_ax, rmul_assoc, N, rmul_1_l; auto.
  - rewrite bwd_fwd, norm_ax by auto. reflexivity.
  - rewrite fwd_bwd, norm_ax by auto. reflexivity.
Qed.
(** It is the adjoint divided by the number of elements. *)
Theorem C40_adjoint_partial : forall (K : cfield) (w : nat -> K) s x y, roots w s -> let d := all_axes w s in
  dot s y (f_direct d Forward x) = rmul (rnat (product s)) (dot s (scaled_direct d (f_H s Forward) y) x).
Proof.
  intros K w s x y R. cbn zeta. pose proof (ninv_product w s R) as N. unfold dot. rewrite <- !(bsum_total w). cbn [f_direct]. rewrite fwd_adjoint. rewrite <- bsum_mul_l.
  apply bsum_ext. intros j Hj. unfold scaled_direct. cbn [f_H fst snd f_direct]. rewrite conj_mul, conj_ninv by (apply (product_pos w), R). rewrite !rmul_assoc, (rmul_comm (rnat _)), N, rmul_1_l. reflexivity.
Qed.

(** ** Examples, with the 4th root of unity of the Gaussian rationals *)
Definition g4 (n : nat) : GQf := if Nat.eqb n 4 then gi else gint (-1).
Definition garr (l : list Z) : list nat -> GQf := fun i => gint (nth (hd 0 i) l 0%Z).
Definition gmat (l : list (list Z)) : list nat -> GQf := fun i => match i with [a; b] => gint (nth a (nth b l []) 0%Z) | _ => gint 0 end.
Definition gnull : list nat -> GQf := fun _ => gint 77.
Definition show1 (n : nat) (x : list nat -> GQf) : list GQf := map (fun i => x [i]) (seq 0 n).
Example C40_roots : roots g4 [4; 2].
Proof. constructor; [exact GQ_root4|]. constructor; [exact GQ_root2|constructor]. Qed.
Example C40_example : exists op, make_real g4 [4] [3] gnull (garr [1; 10; 100]%Z) = Ok op /\ real [3] (garr [1; 10; 100]%Z) /\
  show1 4 (rc_direct g4 [4] gnull op (garr [1; 2; 3; 4]%Z)) = map gint [412; 123; 234; 341]%Z /\
  show1 4 (rc_direct g4 [4] gnull (rc_T op) (garr [1; 2; 3; 4]%Z)) = map gint [214; 321; 432; 143]%Z /\
  show1 4 (rc_direct g4 [4] gnull (rc_cmp [4] op (rc_T op)) (garr [1; 0; 0; 0]%Z)) = map gint [10101; 1010; 200; 1010]%Z.
Proof.
  eexists. split; [reflexivity|]. split. { intros i Hi. apply gq_inj. vm_compute. reflexivity. } split; [apply gq_row; vm_compute; reflexivity|]. split; apply gq_row; vm_compute; reflexivity.
Qed.
Example C40_example_2d : exists op, make_real g4 [4; 2] [3; 1] gnull (gmat [[1; 10; 100]]%Z) = Ok op /\
  map (fun b => map (fun a => rc_direct g4 [4; 2] gnull op (gmat [[1; 2; 3; 4]; [0; 0; 1; 0]]%Z) [a; b]) [0; 1; 2; 3]) [0; 1] = [map gint [412; 123; 234; 341]%Z; map gint [0; 1; 10; 100]%Z].
Proof. eexists. split; [reflexivity|]. apply gq_rows; vm_compute; reflexivity. Qed.

(** With complex numbers, every size has its root of unity (this uses the axioms of the real numbers). *)
Theorem C40_complex_numbers : forall s, Forall (fun n => 0 < n) s -> roots cw s.
Proof. intros s H. eapply Forall_impl; [|exact H]. intros n Hn. apply complex_root, Hn. Qed.

(** Finding: what is called the adjoint is not, because the transform is not normalised. *)
Theorem C40_adjoint_refuted : exists (x y : list nat -> GQf), roots g4 [4] /\
  dot [4] y (f_direct (all_axes g4 [4]) Forward x) <> dot [4] (scaled_direct (all_axes g4 [4]) (f_H [4] Forward) y) x.
Proof.
  exists (garr [1; 0; 0; 0]%Z), (garr [1; 0; 0; 0]%Z). split; [constructor; [exact GQ_root4|constructor]|]. intros E. apply (f_equal gq) in E. vm_compute in E. discriminate.
Qed.
(** Finding: if the transform is along some of the axes, it is not divided by the right number. *)
Theorem C40_axes_refuted : exists (mask : list bool) (x : list nat -> GQf) i, index [4; 2] i /\ let d := some_axes g4 [4; 2] mask in
  scaled_direct d (f_H [4; 2] Forward) (f_direct d Forward x) i <> x i /\ f_direct d Backward (f_direct d Forward x) i <> rmul (f_product [4; 2]) (x i).
Proof.
  exists [true; false], (gmat [[1; 2; 3; 4]; [5; 6; 7; 8]]%Z), [0; 0]. split; [repeat constructor; lia|]. cbn zeta. split; intros E; apply (f_equal gq) in E; vm_compute in E; discriminate.
Qed.
(** Finding: the operator multiplied by a number which is not real is wrong. *)
Theorem C40_homothety_refuted : exists (op : rconv GQf) (a : GQf) (x : list nat -> GQf) i, reachable g4 [4] op /\ real [4] x /\ index [4] i /\
  rc_direct g4 [4] gnull (rc_homothety op a) x i <> rmul a (rc_direct g4 [4] gnull op x i).
Proof.
  assert (exists op, make_real g4 [4] [1] gnull (garr [1]%Z) = Ok op) as [op E] by (eexists; reflexivity).
  exists op, gi, (garr [1; 2; 3; 4]%Z), [0]. split. { apply (RMake _ _ [1] gnull (garr [1]%Z)); auto. intros i Hi. apply gq_inj. unfold garr. destruct (hd 0 i) as [|[|]]; reflexivity. }
  split. { intros i Hi. inversion Hi; subst. apply gq_inj. cbn [garr hd]. destruct y as [|[|[|[|]]]]; try lia; reflexivity. } split; [repeat constructor; lia|].
  injection E as <-. intros E. apply (f_equal gq) in E. vm_compute in E. discriminate.
Qed.
(** Finding: the transpose of a copy of the transpose is not the operator (a copy does not remember that it is one). *)
Theorem C40_copy_transpose_refuted : exists (op : rconv GQf) (x : list nat -> GQf) i, reachable g4 [4] op /\ real [4] x /\ index [4] i /\
  rc_direct g4 [4] gnull (rc_T (rc_T op)) x i <> rc_direct g4 [4] gnull op x i.
Proof.
  assert (exists op, make_real g4 [4] [3] gnull (garr [1; 10; 100]%Z) = Ok op) as [op E] by (eexists; reflexivity).
  exists op, (garr [1; 2; 3; 4]%Z), [0]. split. { apply (RMake _ _ [3] gnull (garr [1; 10; 100]%Z)); auto. intros i Hi. apply gq_inj. unfold garr. destruct (hd 0 i) as [|[|[|[|]]]]; reflexivity. }
  split. { intros i Hi. inversion Hi; subst. apply gq_inj. cbn [garr hd]. destruct y as [|[|[|[|]]]]; try lia; reflexivity. } split; [repeat constructor; lia|].
  injection E as <-. intros E. apply (f_equal gq) in E. vm_compute in E. discriminate.
Qed.

Print Assumptions C40_make.
Print Assumptions C40_convolution.
Print Assumptions C40_complex_convolution.
Print Assumptions C40_correlation.
Print Assumptions C40_transpose.
Print Assumptions C40_homothety.
Print Assumptions C40_sum.
Print Assumptions C40_product.
Print Assumptions C40_fourier.
Print Assumptions C40_unitary.
Print Assumptions C40_adjoint_partial.
Print Assumptions C40_complex_numbers.
Print Assumptions C40_adjoint_refuted.
Print Assumptions C40_axes_refuted.
Print Assumptions C40_homothety_refuted.
Print Assumptions C40_copy_transpose_refuted.
