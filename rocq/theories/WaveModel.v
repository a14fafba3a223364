(** Wavelet transforms: operators_pywt.py, 1-183.

    PyWavelets is not part of the repository: its functions dwt, idwt, wavedec and waverec are written here from their documentation (oracle), for the extension modes 'zero', 'symmetric', 'periodic' and 'constant'.  Vectors are lists over a commutative
    ring: nothing is rounded. *)
From Coq Require Import String.
From Verif Require Import Base Algebra.
Local Open Scope nat_scope.
Local Open Scope list_scope.

Section Wave.
Context {K : cring}.
Local Open Scope cr_scope.
Local Open Scope nat_scope.

(** ** PyWavelets *)
(** pywt.Wavelet: the decomposition and reconstruction filters *)
Record wavelet := Wavelet { w_name : string; dec_lo : list K; dec_hi : list K; rec_lo : list K; rec_hi : list K; w_orthogonal : bool }.
Inductive mode := Zero | Symmetric | Periodic | Constant.
(** A signal extended outside of its range *)
Definition extended (m : mode) (x : list K) (n : Z) : K :=
  let N := Z.of_nat (length x) in
  let at_ z := nth (Z.to_nat z) x r0 in
  if ((0 <=? n) && (n <? N))%Z then at_ n
  else match m with
  | Zero => r0
  | Symmetric => let r := (n mod (2 * N))%Z in if (r <? N)%Z then at_ r else at_ (2 * N - 1 - r)%Z
  | Periodic => at_ (n mod N)%Z
  | Constant => if (n <? 0)%Z then at_ 0%Z else at_ (N - 1)%Z
  end.
(** An element of a filter, zero outside of its range *)
Definition tap (f : list K) (z : Z) : K := if (z <? 0)%Z then r0 else nth (Z.to_nat z) f r0.
(** pywt.dwt with one of the filters: the odd elements of the convolution *)
Definition dwt (m : mode) (f : list K) (x : list K) : list K :=
  map (fun k => sum (length f) (fun i => rmul (nth i f r0) (extended m x (2 * Z.of_nat k + 1 - Z.of_nat i)))) (seq 0 ((length x + length f - 1) / 2)).
(** pywt.wavedec: [approximation, details of the last level, ..., details of the first level] *)
Fixpoint wavedec (m : mode) (w : wavelet) (level : nat) (x : list K) : list (list K) :=
  match level with O => [x] | S l => wavedec m w l (dwt m (dec_lo w) x) ++ [dwt m (dec_hi w) x] end.
(** pywt.idwt: a convolution of the coefficients, separated by zeros, with the reconstruction filters *)
Definition idwt (w : wavelet) (a d : list K) : result (list K) :=
  if negb (length a =? length d) then Raise ValueError else
  let F := Z.of_nat (length (rec_lo w)) in
  Ok (map (fun n => sum (length a) (fun k => let i := (Z.of_nat n + F - 2 - 2 * Z.of_nat k)%Z in radd (rmul (nth k a r0) (tap (rec_lo w) i)) (rmul (nth k d r0) (tap (rec_hi w) i))))
    (seq 0 (2 * length a + 2 - length (rec_lo w)))).
(** pywt.waverec: an approximation with one element too many is cropped *)
Fixpoint recompose (w : wavelet) (a : list K) (ds : list (list K)) : result (list K) :=
  match ds with
  | [] => Ok a
  | d :: ds => a <- idwt w (if length a =? S (length d) then firstn (length d) a else a) d ;; recompose w a ds
  end.
Definition waverec (w : wavelet) (c : list (list K)) : result (list K) := match c with [] => Raise ValueError | a :: ds => recompose w a ds end.

(** ** The dictionary of corresponding wavelets, 12-25 *)
(** s in t *)
Fixpoint contains (s t : string) : bool := String.prefix s t || match t with EmptyString => false | String _ t => contains s t end.
(** name[-3:] *)
Definition last3 (s : string) : string := String.substring (String.length s - 3) 3 s.
Definition reverse_name (name : string) : string :=
  if contains "bior" name then String.append "rbio" (last3 name) else if contains "rbio" name then String.append "bior" (last3 name) else name.
(** rwavelist[name]; [known] is pywt.wavelist(kind='discrete') *)
Definition rwavelist (known : list string) (name : string) : result string := if in_dec string_dec name known then Ok (reverse_name name) else Raise KeyError.
(** pywt.Wavelet(name) *)
Definition pywt_wavelet (registry : list wavelet) (name : string) : result wavelet :=
  match find (fun w => String.eqb (w_name w) name) registry with Some w => Ok w | None => Raise ValueError end.

(** ** WaveletOperator, 31-94 *)
Record op := Op { o_wavelet : wavelet; o_rwavelet : string; o_mode : mode; o_level : nat; o_shapein : nat; o_shapeout : nat; o_sizes : list nat; o_cumsizes : list nat; o_rule : bool }.
(** np.cumsum([s] + sizes) *)
Fixpoint cumsum (s : nat) (l : list nat) : list nat := s :: match l with [] => [] | n :: l => cumsum (s + n) l end.
(** __init__, 58-77; o_rule: the rule T,. -> 1 is set.  The argument wavelet is a Wavelet, level is given. *)
Definition make (registry : list wavelet) (w : wavelet) (m : mode) (level shapein : nat) : result op :=
  r <- rwavelist (map w_name registry) (w_name w) ;;
  let sizes := map (@length K) (wavedec m w level (repeat r0 shapein)) in
  Ok (Op w r m level shapein (list_sum sizes) sizes (cumsum 0 sizes) (w_orthogonal w)).
(** out[:] = v for an array out of size n *)
Definition assign (n : nat) (v : list K) : result (list K) :=
  if length v =? n then Ok v else match v with [a] => Ok (repeat a n) | _ => Raise ValueError end.
(** direct, 79-81, and _coeffs2vect, 87-88 *)
Definition direct (o : op) (x : list K) : result (list K) := assign (o_shapeout o) (concat (wavedec (o_mode o) (o_wavelet o) (o_level o) x)).
(** vect[i:j] *)
Definition slice {A} (v : list A) (i j : nat) : list A := firstn (j - i) (skipn i v).
(** _vect2coeffs, 90-94 *)
Definition vect2coeffs (o : op) (v : list K) : list (list K) := map (fun i => slice v (nth i (o_cumsizes o) 0) (nth (i + 1) (o_cumsizes o) 0)) (seq 0 (length (o_sizes o))).
(** transpose, 83-85; the wavelet of waverec is given by its name *)
Definition transpose (registry : list wavelet) (o : op) (y : list K) : result (list K) :=
  w <- pywt_wavelet registry (o_rwavelet o) ;;
  v <- waverec w (vect2coeffs o y) ;;
  assign (o_shapein o) (firstn (o_shapein o) v).
(** The operator W.T * W applied to a vector: the rule replaces the product by the identity *)
Definition transpose_product (registry : list wavelet) (o : op) (x : list K) : result (list K) :=
  if o_rule o then Ok x else y <- direct o x ;; transpose registry o y.

(** ** Wavelet2dOperator, 97-183: wavedec2 and waverec2 are oracles *)
(** An array of two dimensions in C order *)
Record array2 := Array2 { a_rows : nat; a_cols : nat; a_data : list K }.
Definition shape2 (a : array2) : nat * nat := (a_rows a, a_cols a).
(** The coefficients: the approximation and the three details of each level *)
Record coeffs2 := Coeffs2 { c_approx : array2; c_details : list (list array2) }.
Record op2 := Op2 { p_shapes : list (nat * nat); p_sizes : list nat; p_cumsizes : list nat; p_shapein : nat * nat; p_shapeout : nat }.
(** d[i] *)
Definition third (d : list array2) (i : nat) : array2 := nth i d (Array2 0 0 []).
(** __init__, 126-147 *)
Definition make2 (wavedec2 : array2 -> coeffs2) (shapein : nat * nat) : op2 :=
  let c := wavedec2 (Array2 (fst shapein) (snd shapein) (repeat r0 (fst shapein * snd shapein))) in
  let shapes := shape2 (c_approx c) :: flat_map (fun d => map (fun i => shape2 (third d i)) (seq 0 3)) (c_details c) in
  let sizes := map (fun s => fst s * snd s) shapes in
  Op2 shapes sizes (cumsum 0 sizes) shapein (list_sum sizes).
(** _coeffs2vect, 162-170 *)
Definition coeffs2vect2 (c : coeffs2) : list K := a_data (c_approx c) ++ flat_map (fun d => flat_map (fun i => a_data (third d i)) (seq 0 3)) (c_details c).
(** reshape *)
Definition reshape2 (s : nat * nat) (v : list K) : result array2 := if length v =? fst s * snd s then Ok (Array2 (fst s) (snd s) v) else Raise ValueError.
(** _vect2coeffs, 172-183 *)
Fixpoint collect {A} (l : list (result A)) : result (list A) := match l with [] => Ok [] | r :: l => x <- r ;; xs <- collect l ;; Ok (x :: xs) end.
(** range(start, stop, 3); the steps are bounded by [fuel] *)
Fixpoint range3 (fuel start stop : nat) : list nat := match fuel with O => [] | S f => if start <? stop then start :: range3 f (start + 3) stop else [] end.
Definition vect2coeffs2 (o : op2) (v : list K) : result coeffs2 :=
  approx <- reshape2 (nth 0 (p_shapes o) (0, 0)) (firstn (nth 0 (p_sizes o) 0) v) ;;
  details <- collect (map (fun i => collect (map (fun j => reshape2 (nth (i + j) (p_shapes o) (0, 0)) (slice v (nth (i + j) (p_cumsizes o) 0) (nth (i + j + 1) (p_cumsizes o) 0))) (seq 0 3)))
    (range3 (length (p_sizes o)) 1 (length (p_sizes o)))) ;;
  Ok (Coeffs2 approx details).
(** direct, 151-153 *)
Definition direct2 (wavedec2 : array2 -> coeffs2) (o : op2) (x : array2) : result (list K) := assign (p_shapeout o) (coeffs2vect2 (wavedec2 x)).
(** rec[:n, :m]; the assignment to an array of this shape is refused if rec is too small (a dimension of size one would be repeated, which cannot happen with a larger array) *)
Definition crop2 (s : nat * nat) (a : array2) : result array2 :=
  if (fst s <=? a_rows a) && (snd s <=? a_cols a)
  then Ok (Array2 (fst s) (snd s) (flat_map (fun i => firstn (snd s) (skipn (i * a_cols a) (a_data a))) (seq 0 (fst s)))) else Raise ValueError.
(** transpose, 155-158 *)
Definition transpose2 (waverec2 : coeffs2 -> array2) (o : op2) (y : list K) : result array2 := c <- vect2coeffs2 o y ;; crop2 (p_shapein o) (waverec2 c).

End Wave.
Arguments wavelet K : clear implicits.
Arguments op K : clear implicits.
Arguments array2 K : clear implicits.
Arguments coeffs2 K : clear implicits.
