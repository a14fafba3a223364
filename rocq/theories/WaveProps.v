(** C52: wavelet transforms *)
From Coq Require Import String Ascii QArith Qcanon Lia.
From Verif Require Import Base Algebra Ofield WaveModel WaveSpec WaveProofs.
Local Open Scope nat_scope.
Local Open Scope list_scope.

(** The output of WaveletOperator is the concatenation of the coefficients of wavedec, and has the output shape of the operator; the coefficients can be recovered from it *)
Theorem C52_direct {K : cring} (registry : list (wavelet K)) (w : wavelet K) (m : mode) (level n : nat) (o : op K) (x : list K) (M : make registry w m level n = Ok o) (L : length x = n) :
  exists v, direct o x = Ok v /\ length v = o_shapeout o /\ v = concat (wavedec m w level x) /\ vect2coeffs o v = wavedec m w level x.
Proof. destruct (direct_ok _ _ _ _ _ _ _ M L) as (A & B & C). exists (concat (wavedec m w level x)). auto. Qed.
(** Its transpose is its adjoint for the mode 'zero', if the reconstruction filters of the corresponding wavelet are the mirrored decomposition filters *)
Theorem C52_adjoint {K : cring} (registry : list (wavelet K)) (w w' : wavelet K) (level n : nat) (o : op K) (y : list K)
  (M : make registry w Zero level n = Ok o) (B : balanced w) (R : pywt_wavelet registry (o_rwavelet o) = Ok w') (W : mirror w w') (L : length y = o_shapeout o) :
  exists z, transpose registry o y = Ok z /\ length z = n /\ forall x u, length x = n -> direct o x = Ok u -> ldot u y = ldot x z.
Proof. exact (transpose_adjoint registry w w' level n o y M B R W L). Qed.
(** The rule that replaces W.T * W by the identity for orthogonal wavelets does not change the result, for all modes of extension, levels and sizes *)
Theorem C52_rule {K : cring} (registry : list (wavelet K)) (w w' : wavelet K) (m : mode) (level n : nat) (o : op K) (x : list K)
  (M : make registry w m level n = Ok o) (B : balanced w) (R : pywt_wavelet registry (o_rwavelet o) = Ok w') (W : mirror w w') (P : paraunitary w) (L : length x = n) :
  (y <- direct o x ;; transpose registry o y) = Ok x /\ transpose_product registry o x = Ok x.
Proof.
  pose proof (transpose_direct registry w w' m level n o x M B R W P L) as E. split; [exact E|]. unfold transpose_product. destruct (o_rule o); [reflexivity|exact E].
Qed.

(** An orthogonal wavelet with two rational coefficients *)
Definition q (z : Z) (p : positive) : Qf := Q2Qc (Qmake z p).
Definition haar_like (name : string) : wavelet Qf := Wavelet name [q 3 5; q 4 5] [q 4 5; q (-3) 5] [q 4 5; q 3 5] [q (-3) 5; q 4 5] true.
Lemma haar_like_balanced name : balanced (haar_like name).
Proof. split; [reflexivity|cbn; lia]. Qed.
Lemma haar_like_mirror name : mirror (haar_like name) (haar_like name).
Proof. split; reflexivity. Qed.
Lemma haar_like_paraunitary name : paraunitary (haar_like name).
Proof.
  intros e d [-> | ->].
  - destruct (Z.eqb_spec d 0) as [-> |N]; [apply Qc_is_canon; vm_compute; reflexivity|]. destruct (Z.eq_dec d 1) as [-> |N1]; [apply Qc_is_canon; vm_compute; reflexivity|].
    cbn [haar_like dec_lo dec_hi length sum]. cbn zeta. rewrite !(tap_large _ (2 * Z.of_nat 1 + 0)%Z) by (cbn; lia).
    assert (Z0 : forall a b : Qf, tap (K := Qf) [a; b] (2 * Z.of_nat 0 + 0 + d) = r0).
    { intros a b. destruct (Z.ltb_spec d 0); [apply tap_neg; lia|apply tap_large; cbn [length]; lia]. }
    rewrite !Z0. apply Qc_is_canon. vm_compute. reflexivity.
  - destruct (Z.eqb_spec d 0) as [-> |N]; [apply Qc_is_canon; vm_compute; reflexivity|]. destruct (Z.eq_dec d (-1)) as [-> |N1]; [apply Qc_is_canon; vm_compute; reflexivity|].
    cbn [haar_like dec_lo dec_hi length sum]. cbn zeta. rewrite !(tap_large _ (2 * Z.of_nat 1 + 1)%Z) by (cbn; lia).
    assert (Z0 : forall a b : Qf, tap (K := Qf) [a; b] (2 * Z.of_nat 0 + 1 + d) = r0).
    { intros a b. destruct (Z.ltb_spec d (-1)); [apply tap_neg; lia|apply tap_large; cbn [length]; lia]. }
    rewrite !Z0. apply Qc_is_canon. vm_compute. reflexivity.
Qed.
Example C52_ex : exists o, make [haar_like "w"] (haar_like "w") Zero 2 5 = Ok o /\ o_shapeout o = 7 /\ o_sizes o = [2; 2; 3] /\ pywt_wavelet [haar_like "w"] (o_rwavelet o) = Ok (haar_like "w").
Proof. eexists. split; [reflexivity|]. split; [reflexivity|]. split; reflexivity. Qed.

(** The transpose uses the corresponding wavelet: biorX.Y and rbioX.Y are exchanged, the others are unchanged; the rule is set exactly for the wavelets said to be orthogonal, and the product is left unchanged for the others *)
Theorem C52_constructor {K : cring} (registry : list (wavelet K)) (w : wavelet K) (m : mode) (level n : nat) (o : op K) (name : string) (M : make registry w m level n = Ok o) (P : partner (w_name w) name) :
  o_rwavelet o = name /\ o_shapein o = n /\ (w_orthogonal w = false -> forall x, transpose_product registry o x = (y <- direct o x ;; transpose registry o y)).
Proof.
  destruct (make_ok _ _ _ _ _ _ M) as (_ & E & _). split; [rewrite E; exact (partner_reverse _ _ P)|]. split; [rewrite E; reflexivity|].
  intros O x. assert (R : o_rule o = w_orthogonal w) by (rewrite E; reflexivity). unfold transpose_product. rewrite R, O. reflexivity.
Qed.
Example C52_constructor_ex : partner "bior2.4" "rbio2.4" /\ exists o, make [haar_like "bior2.4"; haar_like "rbio2.4"] (haar_like "bior2.4") Periodic 1 4 = Ok o /\ o_rwavelet o = "rbio2.4"%string.
Proof. split; [left; exists "2"%char, "."%char, "4"%char; split; [discriminate|left; split; reflexivity]|]. eexists. split; reflexivity. Qed.

(** Two dimensions: if the shapes of the coefficients depend only on the shape of the input, the output is made of the coefficients, which can be recovered, and any vector of the output shape is that of some coefficients *)
Theorem C52_2d {K : cring} (wavedec2 : array2 K -> coeffs2 K) (shapein : nat * nat) (c0 : coeffs2 K)
  (E : wavedec2 (Array2 (fst shapein) (snd shapein) (repeat r0 (fst shapein * snd shapein))) = c0) (G : good_coeffs c0) :
  let o := make2 wavedec2 shapein in
  (forall x, good_coeffs (wavedec2 x) -> same_shapes (wavedec2 x) c0 -> exists v, direct2 wavedec2 o x = Ok v /\ length v = p_shapeout o /\ vect2coeffs2 o v = Ok (wavedec2 x))
  /\ (forall v, length v = p_shapeout o -> exists c, vect2coeffs2 o v = Ok c /\ good_coeffs c /\ same_shapes c c0 /\ coeffs2vect2 c = v).
Proof.
  cbn zeta. destruct (make2_ok wavedec2 shapein c0 E G) as (E1 & E2 & E3 & E4 & _). set (o := make2 wavedec2 shapein) in *. split.
  - intros x Gx Sx. pose proof (same_arrays _ _ Sx) as SA. pose proof (vect2_length _ Gx) as L. rewrite SA, <- E1, <- E2, <- E4 in L.
    exists (coeffs2vect2 (wavedec2 x)). split; [exact (assign_exact _ _ L)|]. split; [exact L|]. apply unpack2; congruence.
  - intros v L. rewrite E4, E2, E1 in L. destruct (fill c0 v G L) as (c & Gc & Sc & Ec). exists c. split; [|auto]. rewrite <- Ec. apply unpack2; auto. rewrite E1. symmetry. exact (same_arrays _ _ Sc).
Qed.
(** The reconstruction is cropped to the input shape *)
Theorem C52_crop {K : cring} (shape : nat * nat) (a z : array2 K) (G : good2 a) (E : crop2 shape a = Ok z) :
  shape2 z = shape /\ good2 z /\ forall i j, i < fst shape -> j < snd shape -> element2 z i j = element2 a i j.
Proof. exact (crop2_ok shape a z G E). Qed.
Example C52_crop_ex : crop2 (1, 2) (Array2 2 3 [q 1 1; q 2 1; q 3 1; q 4 1; q 5 1; q 6 1]) = Ok (Array2 1 2 [q 1 1; q 2 1]).
Proof. reflexivity. Qed.
(** and the transpose is the adjoint if the reconstruction, cropped to the input shape, is that of the decomposition *)
Theorem C52_2d_adjoint {K : cring} (wavedec2 : array2 K -> coeffs2 K) (waverec2 : coeffs2 K -> array2 K) (shapein : nat * nat) (c0 : coeffs2 K)
  (E : wavedec2 (Array2 (fst shapein) (snd shapein) (repeat r0 (fst shapein * snd shapein))) = c0) (G : good_coeffs c0)
  (A : forall c, good_coeffs c -> same_shapes c c0 -> exists z, crop2 shapein (waverec2 c) = Ok z /\ forall x, shape2 x = shapein -> good2 x -> good_coeffs (wavedec2 x) /\ same_shapes (wavedec2 x) c0 /\ pairing (wavedec2 x) c = ldot (a_data x) (a_data z)) 
  (y : list K) (L : length y = p_shapeout (make2 wavedec2 shapein)) :
  exists z, transpose2 waverec2 (make2 wavedec2 shapein) y = Ok z /\ forall x u, shape2 x = shapein -> good2 x -> direct2 wavedec2 (make2 wavedec2 shapein) x = Ok u -> ldot u y = ldot (a_data x) (a_data z).
Proof.
  destruct (C52_2d wavedec2 shapein c0 E G) as [D V]. destruct (V y L) as (c & Ec & Gc & Sc & Ey). destruct (make2_ok wavedec2 shapein c0 E G) as (_ & _ & _ & _ & Es). cbn zeta in Es.
  destruct (A c Gc Sc) as (z & Ez & H). exists z. split; [unfold transpose2; rewrite Ec; cbn [rbind]; rewrite Es; exact Ez|].
  intros x u Sx Gx Du. destruct (H x Sx Gx) as (Gw & Sw & Hx). rewrite <- Hx, <- Ey. destruct (D x Gw Sw) as (v & Dv & _ & Ev).
  unfold direct2 in Du, Dv. rewrite Du in Dv. injection Dv as <-.
  assert (Eu : u = coeffs2vect2 (wavedec2 x)).
  { pose proof (vect2_length _ Gw) as Lw. rewrite (same_arrays _ _ Sw) in Lw. destruct (make2_ok wavedec2 shapein c0 E G) as (E1 & E2 & _ & E4 & _). cbn zeta in *. rewrite <- E1, <- E2, <- E4 in Lw.
    pose proof (assign_exact _ _ Lw) as AE. congruence. }
  rewrite Eu. apply ldot_coeffs; [exact Gw|exact Gc|]. destruct Sw as [S1 S2], Sc as [S3 S4]. split; congruence.
Qed.
(** One level of a transform that splits an array in four quarters *)
Definition quarter (a b : nat) (x : array2 Qf) : array2 Qf := Array2 1 1 [nth (a * 2 + b) (a_data x) r0].
Definition split4 (x : array2 Qf) : coeffs2 Qf := Coeffs2 (quarter 0 0 x) [[quarter 0 1 x; quarter 1 0 x; quarter 1 1 x]].
Definition join4 (c : coeffs2 Qf) : array2 Qf := Array2 2 2 (coeffs2vect2 c).
Example C52_2d_ex : good_coeffs (split4 (Array2 2 2 (repeat r0 4))) /\ p_shapeout (make2 split4 (2, 2)) = 4
  /\ (x <- direct2 split4 (make2 split4 (2, 2)) (Array2 2 2 [q 1 1; q 2 1; q 3 1; q 4 1]) ;; transpose2 join4 (make2 split4 (2, 2)) x) = Ok (Array2 2 2 [q 1 1; q 2 1; q 3 1; q 4 1]).
Proof.
  split; [|split; reflexivity]. split; [reflexivity|]. constructor; [|constructor]. split; [reflexivity|]. repeat constructor.
Qed.

(** In the other modes of extension, the transpose of WaveletOperator is not its adjoint: for instance 'symmetric', with an orthogonal wavelet and an input of odd size *)
Theorem C52_adjoint_refuted : exists (registry : list (wavelet Qf)) (w : wavelet Qf) (level n : nat) (o : op Qf) (x y u z : list Qf),
  make registry w Symmetric level n = Ok o /\ balanced w /\ mirror w w /\ paraunitary w /\ pywt_wavelet registry (o_rwavelet o) = Ok w
  /\ length x = n /\ length y = o_shapeout o /\ direct o x = Ok u /\ transpose registry o y = Ok z /\ ldot (K := Qf) u y <> ldot (K := Qf) x z.
Proof.
  exists [haar_like "w"], (haar_like "w"), 1, 3. eexists. exists [q 0 1; q 0 1; q 1 1], [q 0 1; q 1 1; q 0 1; q 0 1]. eexists. eexists.
  split; [reflexivity|]. split; [apply haar_like_balanced|]. split; [apply haar_like_mirror|]. split; [apply haar_like_paraunitary|]. split; [reflexivity|].
  split; [reflexivity|]. split; [reflexivity|]. split; [reflexivity|]. split; [reflexivity|].
  intros H. apply (f_equal this) in H. vm_compute in H. discriminate.
Qed.
(** A Wavelet object with filters of one's own, whose name is not in the list of PyWavelets, is refused with KeyError although Wavelet objects are accepted as argument: the corresponding wavelet is looked up by name (operators_pywt.py, 58-61) *)
Theorem C52_custom_refuted : exists (registry : list (wavelet Qf)) (w : wavelet Qf), balanced w /\ mirror w w /\ paraunitary w /\ forall m level n, make registry w m level n = Raise KeyError.
Proof.
  exists [haar_like "haar"], (haar_like "custom"). split; [apply haar_like_balanced|]. split; [apply haar_like_mirror|]. split; [apply haar_like_paraunitary|]. reflexivity.
Qed.

Print Assumptions C52_direct.
Print Assumptions C52_adjoint.
Print Assumptions C52_rule.
Print Assumptions C52_constructor.
Print Assumptions C52_crop.
Print Assumptions C52_2d.
Print Assumptions C52_2d_adjoint.
Print Assumptions C52_adjoint_refuted.
Print Assumptions C52_custom_refuted.
