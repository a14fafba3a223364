(** Independent vocabulary for C43. *)
From Verif Require Import Base Algebra Ofield CritModel CritSpec AcgModel.

Section Spec.
Context {K : ofield}.
Local Open Scope cr_scope.
Notation array := (list K).

(** The array x + a d *)
Definition along (x : array) (a : K) (d : array) : array := map2 radd x (map (fun t => a * t) d).
(** x + c_1 d_1 + c_2 d_2 + ... *)
Fixpoint moved (x : array) (c : list K) (ds : list array) : array := match c, ds with a :: c, d :: ds => moved (along x a d) c ds | _, _ => x end.
(** A quadratic function of n variables, with its gradient g and its quadratic part q: f (x + h) = f x + g(x) . h + q(h) and q(a h) = a^2 q(h) *)
Definition quadratic_function (n : nat) (f : array -> K) (g : array -> array) (q : array -> K) : Prop :=
  (forall x, length x = n -> length (g x) = n) /\
  (forall x h, length x = n -> length h = n -> f (map2 radd x h) = f x + dot (g x) h + q h) /\
  (forall a h, length h = n -> q (map (fun t => a * t) h) = a * a * q h).
(** It is strictly convex. *)
Definition definite (n : nat) (q : array -> K) : Prop := forall h, length h = n -> h <> repeat 0 n -> lt 0 (q h).
(** A function below its quadratic majorants, such as the Huber function *)
Definition majorised (n : nat) (f : array -> K) (g : array -> array) (q : array -> K) : Prop :=
  (forall x, length x = n -> length (g x) = n) /\
  (forall x h, length x = n -> length h = n -> le (f (map2 radd x h)) (f x + dot (g x) h + q h)) /\
  (forall a h, length h = n -> q (map (fun t => a * t) h) = a * a * q h) /\ (forall h, length h = n -> le 0 (q h)).
(** x is a minimum of f. *)
Definition minimum (n : nat) (f : array -> K) (x : array) : Prop := length x = n /\ forall y, length y = n -> le (f x) (f y).

(** The criterion is the function f, of gradient g, and the line search is the step that is optimal for the quadratic part q. *)
Record criterion_is (n : nat) (value : array -> result K) (gradient : array -> result array) (search : algo K -> result (number K)) f g q : Prop := {
  ci_value : forall x, length x = n -> value x = Ok (f x);
  ci_gradient : forall x, length x = n -> gradient x = Ok (g x);
  ci_search : forall s d v, descent s = Some d -> grad s = Some v -> length d = n -> length v = n -> search s = Ok (if eqb (q d) 0 then None else Some (div (- div (dot d v) two) (q d))) }.

(** The algorithm after k iterations; [s] are its attributes before the method initialize *)
Fixpoint after (n : nat) (value : array -> result K) (gradient : array -> result array) (search : algo K -> result (number K)) (type : update_type) (s : algo K) (k : nat) : result (algo K) :=
  match k with
  | O => initialize n value s
  | S k => s <- after n value gradient search type s k ;; iterate value gradient search type s
  end.
End Spec.

(** What a criterion made of elements computes (C42); the quadratic part is the denominator of the optimal step. *)
Section Criterion.
Context {K : ofield} (es : list (element K)) (l : list component).
Definition crit_value (x : list K) : K := match CritSpec.value es (Cr l) x with Ok v => v | Raise _ => r0 end.
Definition crit_gradient (x : list K) : list K := match CritSpec.gradient es (Cr l) x with Ok v => v | Raise _ => [] end.
Definition crit_quadratic (d : list K) : K := match optimal_sum es l d with Ok v => v | Raise _ => r0 end.
(** The criterion is made of elements, and not of criteria. *)
Definition flat : Prop := Forall (fun c => exists id, c = El id) l.
End Criterion.
(** A norm that is below its quadratic majorants, the quadratic part being the one used by the optimal step *)
Definition below_quadratic {K : ofield} (m : nat) (N : norm K) : Prop :=
  (forall y, length y = m -> length (n_diff N y) = m) /\
  (forall y h, length y = m -> length h = m -> le (n_call N (map2 radd y h)) (radd (radd (n_call N y) (dot (n_diff N y) h)) (n_call (plain_norm N) h))) /\
  (forall a y, length y = m -> n_call (plain_norm N) (map (fun t => rmul a t) y) = rmul (rmul a a) (n_call (plain_norm N) y)) /\
  (forall h, length h = m -> le r0 (n_call (plain_norm N) h)).
