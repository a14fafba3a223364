(** Filter banks and their adjoints *)
From Coq Require Import String Ascii.
From Verif Require Import Base Algebra WaveModel.
Local Open Scope nat_scope.
Local Open Scope list_scope.

Section Spec.
Context {K : cring}.

(** The two decomposition filters have the same size and are not empty *)
Definition balanced (w : wavelet K) : Prop := length (dec_lo w) = length (dec_hi w) /\ 0 < length (dec_lo w).
(** The reconstruction filters of w' are the decomposition filters of w in the reverse order *)
Definition mirror (w w' : wavelet K) : Prop := rec_lo w' = rev (dec_lo w) /\ rec_hi w' = rev (dec_hi w).
(** Orthogonality of the filters: for each parity e and each shift d, the sum over j of h[2j+e] h[2j+e+d] + g[2j+e] g[2j+e+d] is one if d is zero and zero otherwise *)
Definition paraunitary (w : wavelet K) : Prop :=
  forall e d : Z, (e = 0 \/ e = 1)%Z ->
  sum (length (dec_lo w)) (fun j => let i := (2 * Z.of_nat j + e)%Z in radd (rmul (tap (dec_lo w) i) (tap (dec_lo w) (i + d))) (rmul (tap (dec_hi w) i) (tap (dec_hi w) (i + d))))
  = if (d =? 0)%Z then r1 else r0.
(** The wavelets biorX.Y and rbioX.Y correspond to each other, the others to themselves *)
Definition partner (name name' : string) : Prop :=
  (exists a b c, a <> "r"%char /\ let s := String a (String b (String c EmptyString)) in
    name = String.append "bior" s /\ name' = String.append "rbio" s \/ name = String.append "rbio" s /\ name' = String.append "bior" s)
  \/ (forall s t, name <> String.append s (String.append "bior" t)) /\ (forall s t, name <> String.append s (String.append "rbio" t)) /\ name' = name.

(** A two-dimensional array with its data, coefficients with three details at each level, the same shapes *)
Definition good2 (a : array2 K) : Prop := length (a_data a) = a_rows a * a_cols a.
Definition good_coeffs (c : coeffs2 K) : Prop := good2 (c_approx c) /\ Forall (fun d => length d = 3 /\ Forall good2 d) (c_details c).
Definition same_shapes (c c' : coeffs2 K) : Prop := shape2 (c_approx c) = shape2 (c_approx c') /\ map (map shape2) (c_details c) = map (map shape2) (c_details c').
(** The element (i, j) of an array *)
Definition element2 (a : array2 K) (i j : nat) : K := nth (i * a_cols a + j) (a_data a) r0.
(** Scalar product of coefficients *)
Definition pairing (c c' : coeffs2 K) : K :=
  radd (ldot (a_data (c_approx c)) (a_data (c_approx c'))) (lsum (map (fun p => lsum (map (fun q => ldot (a_data (fst q)) (a_data (snd q))) (combine (fst p) (snd p)))) (combine (c_details c) (c_details c')))).
End Spec.
