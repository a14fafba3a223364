(** Independent vocabulary for C42. *)
From Verif Require Import Base Algebra Ofield CritModel.

Section Spec.
Context {K : ofield}.
Local Open Scope cr_scope.
Notation array := (list K).

(** The value and the gradient of an element at x: the norm of model(x) - data, and model.T (norm'(model(x) - data)). *)
Definition misfit (e : element K) (x : array) : result array := y <- o_call (e_op e) x ;; match e_data e with None => Ok y | Some d => minus y d end.
Definition element_value (e : element K) (x : array) : result K := y <- misfit e x ;; Ok (n_call (e_norm e) y).
Definition element_gradient (e : element K) (x : array) : result array := y <- misfit e x ;; o_T (e_op e) (n_diff (e_norm e) y).
(** Those of a criterion are the sums of those of its elements. *)
Fixpoint value (es : list (element K)) (c : component) (x : array) : result K :=
  match c with
  | El id => match nth_error es id with Some e => element_value e x | None => Raise IndexError end
  | Cr l => (fix go l acc := match l with [] => Ok acc | c :: l => v <- value es c x ;; go l (acc + v) end) l 0
  end.
Fixpoint gradient (es : list (element K)) (c : component) (x : array) : result array :=
  match c with
  | El id => match nth_error es id with Some e => element_gradient e x | None => Raise IndexError end
  | Cr l =>
      (fix go l (acc : option array) :=
         match l with
         | [] => match acc with Some v => Ok v | None => Raise IndexError end
         | c :: l => v <- gradient es c x ;; v <- match acc with None => Ok v | Some w => plus w v end ;; go l (Some v)
         end) l None
  end.

(** The same events without any cache: the arrays of the user, the elements, and the elements and criteria of the user. *)
Record ideal := Ideal { i_arrays : list array; i_elements : list (element K); i_handles : list component }.
Definition ideal_act (s : ideal) (e : event K) : ideal * output K :=
  let push es c := Ideal (i_arrays s) es (i_handles s ++ [c]) in
  match e with
  | NewArray v => (Ideal (i_arrays s ++ [v]) (i_elements s) (i_handles s), Nothing)
  | Write i v => if Nat.ltb i (length (i_arrays s)) then (Ideal (set_nth (i_arrays s) i v) (i_elements s) (i_handles s), Nothing) else (s, Error IndexError)
  | NewElement N o data => match make_element N o data with Ok e => (push (i_elements s ++ [e]) (El (length (i_elements s))), Nothing) | Raise x => (s, Error x) end
  | Scale c i => match nth_error (i_handles s) i with Some a => let '(es, a) := scale c (i_elements s) a in (push es a, Nothing) | None => (s, Error IndexError) end
  | Sum i j =>
      match nth_error (i_handles s) i, nth_error (i_handles s) j with
      | Some a, Some b => match add (i_elements s) a b with Ok c => (push (i_elements s) c, Nothing) | Raise x => (s, Error x) end
      | _, _ => (s, Error IndexError)
      end
  | SumZero i =>
      match nth_error (i_handles s) i with
      | Some a => match add_zero (i_elements s) a with Ok c => (push (i_elements s) c, Nothing) | Raise x => (s, Error x) end
      | None => (s, Error IndexError)
      end
  | Call i r => match nth_error (i_handles s) i, nth_error (i_arrays s) r with Some a, Some x => (s, out Value (value (i_elements s) a x)) | _, _ => (s, Error IndexError) end
  | Diff i r => match nth_error (i_handles s) i, nth_error (i_arrays s) r with Some a, Some x => (s, out Gradient (gradient (i_elements s) a x)) | _, _ => (s, Error IndexError) end
  end.
Fixpoint ideal_run (s : ideal) (l : list (event K)) : list (output K) := match l with [] => [] | e :: l => let '(s, o) := ideal_act s e in o :: ideal_run s l end.
Definition ideal_start : ideal := Ideal [] [] [].
(** Only arrays of n elements, and operators that accept them *)
Definition proper (n : nat) (e : event K) : Prop :=
  match e with
  | NewArray v | Write _ v => length v = n
  | NewElement _ o _ => forall x, length x = n -> exists y, o_call o x = Ok y
  | _ => True
  end.

(** [g] is the gradient of [f] at x: f (x + h) = f x + g . h + O(h^2) *)
Definition is_gradient (f : array -> K) (x g : array) : Prop :=
  length g = length x /\
  exists r C, lt 0 r /\ le 0 C /\ forall h, length h = length x -> Forall (fun t => le (abs t) r) h -> le (abs (f (map2 radd x h) - f x - dot g h)) (C * dot h h).
(** the m x n matrix O times x, and its transpose times y *)
Definition matvec (m n : nat) (O : nat -> nat -> K) (x : array) : array := map (fun i => sum n (fun j => O i j * nth j x 0)) (seq 0 m).
Definition transposed (O : nat -> nat -> K) (i j : nat) : K := O j i.
(** The operator is the m x n matrix O. *)
Definition is_matrix (m n : nat) (O : nat -> nat -> K) (o : oper K) : Prop :=
  (forall x, length x = n -> o_call o x = Ok (matvec m n O x)) /\ (forall y, length y = m -> o_T o y = Ok (matvec n m (transposed O) y)).
(** A norm and its diff method, on arrays of m elements *)
Definition smooth (m : nat) (N : norm K) : Prop := forall y, length y = m -> is_gradient (n_call N) y (n_diff N y).
(** A quadratic form: N(y + h) = N(y) + N'(y) . h + N(h) and N(a y) = a^2 N(y) *)
Definition quadratic (m : nat) (N : norm K) : Prop :=
  (forall y h, length y = m -> length h = m -> length (n_diff N y) = m /\ n_call N (map2 radd y h) = n_call N y + dot (n_diff N y) h + n_call N h) /\
  (forall a y, length y = m -> n_call N (map (fun t => a * t) y) = a * a * n_call N y).
(** A norm of the class Norm2 that is a quadratic form *)
Definition quadratic2 (m : nat) (N : norm K) : Prop := n_kind N = KNorm2 /\ quadratic m N.
(** An element made of a matrix with n columns, and data of the right size; [P m N] holds of its norm *)
Definition linear_element (P : nat -> norm K -> Prop) (n : nat) (e : element K) : Prop :=
  exists m O, is_matrix m n O (e_op e) /\ P m (e_norm e) /\ match e_data e with None => True | Some d => length d = m end.
(** Every element of a criterion satisfies P, and no criterion is empty. *)
Fixpoint every (P : element K -> Prop) (es : list (element K)) (c : component) : Prop :=
  match c with
  | El id => match nth_error es id with Some e => P e | None => False end
  | Cr l => l <> [] /\ (fix go l := match l with [] => True | c :: l => every P es c /\ go l end) l
  end.
Definition ok_value (r : result K) : K := match r with Ok v => v | Raise _ => 0 end.
Definition scaled (c : K) (r : result K) : result K := v <- r ;; Ok (c * v).
Definition scaled_array (c : K) (r : result array) : result array := v <- r ;; Ok (map (fun t => c * t) v).
Definition summed (a b : result K) : result K := v <- a ;; w <- b ;; Ok (v + w).
Definition summed_array (a b : result array) : result array := v <- a ;; w <- b ;; plus v w.
(** The penalised criterion: the norm of model(x) - data, plus the sum of h times the norm of prior(x) *)
Fixpoint penalty (norms : list (norm K)) (hypers : list K) (priors : list (oper K)) (x : array) : result K :=
  match norms, hypers, priors with
  | N :: norms, h :: hypers, o :: priors => y <- o_call o x ;; v <- penalty norms hypers priors x ;; Ok (h * n_call N y + v)
  | _, _, _ => Ok 0
  end.
End Spec.
Arguments ideal : clear implicits.
