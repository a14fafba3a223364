(** Norms, criteria and line searches, /repo/src/pyoperators/iterative/criterions.py and linesearch.py.  Numbers are elements of an ordered field: rounding is left out.
    Arrays are one-dimensional; the operators are functions on them, that may raise. *)
From Coq Require Import QArith.
From Verif Require Import Base Algebra Ofield.
Close Scope Q_scope.

Section Criterions.
Context {K : ofield}.
Local Open Scope cr_scope.
Notation array := (list K).

Fixpoint map2 (f : K -> K -> K) (x y : array) : array := match x, y with a :: x, b :: y => f a b :: map2 f x y | _, _ => [] end.
Fixpoint total (x : array) : K := match x with [] => 0 | a :: x => a + total x end.
(** np.abs, np.sign, ** with a natural number, <= *)
Definition abs (t : K) : K := if ltb t 0 then - t else t.
Definition sign (t : K) : K := if ltb t 0 then - (1) else if ltb 0 t then 1 else 0.
Fixpoint power (t : K) (p : nat) : K := match p with O => 1 | S p => t * power t p end.
Definition leb (a b : K) : bool := negb (ltb b a).
Definition two : K := 1 + 1.
Fixpoint of_nat (p : nat) : K := match p with O => 0 | S p => 1 + of_nat p end.
(** np.dot of vectors of the same size *)
Definition dot (x y : array) : K := total (map2 rmul x y).

(** norm2 and dnorm2, 40-46 *)
Definition norm2 (x : array) : K := dot x x.
Definition dnorm2 (x : array) : array := map (fun t => two * t) x.
(** normp and dnormp, 50-61, p being a positive integer *)
Definition normp (p : nat) (x : array) : K := total (map (fun t => power (abs t) p) x).
Definition dnormp (p : nat) (x : array) : array := map (fun t => sign t * of_nat p * power (abs t) (p - 1)) x.
(** huber, 65-72, one element: the elements that satisfy none of the conditions are left as they are *)
Definition huber1 (delta t : K) : K :=
  if ltb (abs t) delta then power (abs t) 2 else if leb delta (abs t) then two * delta * abs t - power delta 2 else t.
(** dhuber, 75-84: three assignments, the last one prevails *)
Definition dhuber1 (delta t : K) : K :=
  if leb t (- delta) then - two * delta else if leb delta t then two * delta else if ltb (abs t) delta then two * t else t.
Definition huber (delta : K) (x : array) : array := map (huber1 delta) x.
Definition dhuber (delta : K) (x : array) : array := map (dhuber1 delta) x.
(** hnorm and dhnorm, 87-106 *)
Definition hnorm (d : option K) (x : array) : K := match d with None => norm2 x | Some d => total (huber d x) end.
Definition dhnorm (d : option K) (x : array) : array := match d with None => dnorm2 x | Some d => dhuber d x end.

(** Norm2, Huber, Normp, 118-232: the class, the public attribute (C, delta or p) and the private functions *)
Inductive kind := KNorm2 | KHuber | KNormp.
Inductive attribute := ANone | AOperator | ANumber (x : K) | ADict.
Record norm := Norm { n_kind : kind; n_attribute : attribute; n_call : array -> K; n_diff : array -> array }.
Definition make_norm2 (C : option (array -> array)) : norm :=
  match C with
  | None => Norm KNorm2 ANone norm2 (fun x => map (fun t => two * t) x)
  | Some C => Norm KNorm2 AOperator (fun x => dot x (C x)) (fun x => map (fun t => two * t) (C x))
  end.
Definition make_huber (delta : option K) : norm := Norm KHuber (match delta with None => ANone | Some d => ANumber d end) (hnorm delta) (dhnorm delta).
Definition make_normp (p : nat) : norm := Norm KNormp (ANumber (of_nat p)) (normp p) (dnormp p).
(** Norm.__mul__, 129-140, with _scalar_mul, 110-114: the dictionary of the public attributes is given as first argument to the constructor *)
Definition norm_mul (c : K) (N : norm) : norm := Norm (n_kind N) ADict (fun x => c * n_call N x) (fun x => map (fun t => c * t) (n_diff N x)).

(** The operator of a criterion: shapein, shapeout (None if implicit), itself and its transpose *)
Record oper := Oper { o_in : option (list nat); o_out : option (list nat); o_call : array -> result array; o_T : array -> result array }.

(** `not data.shape == np.prod(op.shapeout)`, 250: a tuple is compared to a NumPy integer, element by element; the truth value of an array of several elements is an error,
    and that of an array without elements is False.  The product of None is None. *)
Definition data_ok (shape : list nat) (out : option (list nat)) : result bool :=
  match out with
  | None => Ok false
  | Some s => match shape with [] => Ok false | [m] => Ok (Nat.eqb m (fold_left Nat.mul s 1%nat)) | _ => Raise ValueError end
  end.

(** CriterionElement.__init__, 239-285.  The array of data is the shape and the elements in C order. *)
Record element := Element { e_norm : norm; e_op : oper; e_data : option array }.
Definition make_element (N : norm) (o : oper) (data : option (list nat * array)) : result element :=
  match data with
  | None => Ok (Element N o None)
  | Some (shape, d) => ok <- data_ok shape (o_out o) ;; if ok then Ok (Element N o (Some d)) else Raise ValueError
  end.

(** An element or a criterion, made of elements or criteria.  Elements are objects, known by their number. *)
Inductive component := El (id : nat) | Cr (l : list component).
Fixpoint shapein (es : list element) (c : component) : option (list nat) :=
  match c with
  | El id => match nth_error es id with Some e => o_in (e_op e) | None => None end
  | Cr l => match l with [] => None | c :: _ => shapein es c end
  end.
Definition shape_eqb (s t : option (list nat)) : bool :=
  match s, t with Some s, Some t => if list_eq_dec Nat.eq_dec s t then true else false | None, None => true | _, _ => false end.
(** Criterion.__init__, 351-355 *)
Definition make_criterion (es : list element) (l : list component) : result component :=
  match l with
  | [] => Raise IndexError
  | c :: _ => if forallb (fun d => shape_eqb (shapein es d) (shapein es c)) l then Ok (Cr l) else Raise ValueError
  end.
(** __add__ of CriterionElement and Criterion, 315-343 and 373-395 *)
Definition add (es : list element) (a b : component) : result component :=
  match a, b with
  | El _, El _ => if shape_eqb (shapein es a) (shapein es b) then make_criterion es [a; b] else Raise ValueError
  | El _, Cr l => if shape_eqb (shapein es a) (shapein es b) then make_criterion es (a :: l) else Raise ValueError
  | Cr l, Cr m => make_criterion es (l ++ m)
  | Cr l, El _ => make_criterion es (l ++ [b])
  end.
(** a + 0 and 0 + a *)
Definition add_zero (es : list element) (a : component) : result component := make_criterion es [a].
(** __mul__ of CriterionElement and Criterion, 304-310 and 363-368: new elements *)
Fixpoint scale (c : K) (es : list element) (a : component) : list element * component :=
  match a with
  | El id =>
      match nth_error es id with
      | Some e => (es ++ [Element (norm_mul c (e_norm e)) (e_op e) (e_data e)], El (length es))
      | None => (es, El id)
      end
  | Cr l =>
      let '(es, l) :=
        (fix go es l := match l with [] => (es, []) | a :: l => let '(es, a) := scale c es a in let '(es, l) := go es l in (es, a :: l) end) es l in
      (es, Cr l)
  end.

(** quadratic_criterion, huber_criterion and normp_criterion, 399-423, from their list of norms *)
Fixpoint prior (es : list element) (hypers : list K) (elements : list element) (acc : option component) : result (list element * option component) :=
  match hypers, elements with
  | h :: hypers, e :: elements =>
      let '(es, a) := scale h (es ++ [e]) (El (length es)) in
      acc <- match acc with None => add_zero es a | Some b => add es b a end ;;
      prior es hypers elements (Some acc)
  | _, _ => Ok (es, acc)
  end.
Fixpoint zip_elements (norms : list norm) (priors : list oper) : list element :=
  match norms, priors with N :: norms, o :: priors => Element N o None :: zip_elements norms priors | _, _ => [] end.
Definition criterion_of (norms : list norm) (model : oper) (data : list nat * array) (hypers : list K) (priors : list oper) : result (list element * component) :=
  match norms with
  | [] => Raise IndexError
  | N :: norms =>
      likelihood <- make_element N model (Some data) ;;
      p <- prior [likelihood] hypers (zip_elements norms priors) None ;;
      c <- match snd p with None => add_zero (fst p) (El 0) | Some b => add (fst p) (El 0) b end ;;
      Ok (fst p, c)
  end.
Definition quadratic_criterion (model : oper) (data : list nat * array) (hypers : list K) (priors : list oper) (covariances : option (list (array -> array))) :=
  criterion_of (match covariances with None => repeat (make_norm2 None) (1 + length hypers) | Some l => map (fun C => make_norm2 (Some C)) l end) model data hypers priors.
Definition huber_criterion (model : oper) (data : list nat * array) (hypers : list K) (priors : list oper) (deltas : list K) :=
  criterion_of (map (fun d => make_huber (Some d)) deltas) model data hypers priors.
Definition normp_criterion (model : oper) (data : list nat * array) (hypers : list K) (priors : list oper) (ps : list nat) :=
  criterion_of (map make_normp ps) model data hypers priors.

(** The memory: the arrays, among which those of the user, the elements with their attributes last_x (the number of an array) and last_ox (the array itself, which nobody
    else sees), and the elements and criteria of the user *)
Record cache := Cache { last_x : option nat; last_ox : option array }.
Record state := State { arrays : list array; user : list nat; elements : list element; caches : nat -> cache; handles : list component }.
Definition read (s : state) (r : nat) : array := nth r (arrays s) [].
(** self.last_ox - data (arrays of the same size: data of another size do not pass 250) *)
Definition minus (x y : array) : result array := if Nat.eqb (length x) (length y) then Ok (map2 rsub x y) else Raise ValueError.
Definition plus (x y : array) : result array := if Nat.eqb (length x) (length y) then Ok (map2 radd x y) else Raise ValueError.

Context (strict : bool).
(** np.all(x == y), with broadcasting.  For other sizes, the comparison raises since NumPy 1.25 ([strict]) and is False before. *)
Definition all_equal (x y : array) : result bool :=
  if Nat.eqb (length x) (length y) then Ok (forallb (fun ab => eqb (fst ab) (snd ab)) (combine x y))
  else match x, y with
       | [a], _ => Ok (forallb (eqb a) y)
       | _, [b] => Ok (forallb (fun a => eqb a b) x)
       | _, _ => if strict then Raise ValueError else Ok false
       end.
(** _islastx, 287-288: an array differs from None unless it is empty *)
Definition is_last (s : state) (id r : nat) : result bool :=
  match last_x (caches s id) with None => Ok (Nat.eqb (length (read s r)) 0) | Some l => all_equal (read s r) (read s l) end.
Definition set_cache (s : state) (id : nat) (c : cache) : state :=
  State (arrays s) (user s) (elements s) (fun i => if Nat.eqb i id then c else caches s i) (handles s).
Definition alloc (s : state) (v : array) : state * nat := (State (arrays s ++ [v]) (user s) (elements s) (caches s) (handles s), length (arrays s)).
(** _storex, 290-292: a copy of x *)
Definition store_x (s : state) (id r : nat) (e : element) : state * result unit :=
  let '(s, l) := alloc s (read s r) in
  let s := set_cache s id (Cache (Some l) (last_ox (caches s id))) in
  match o_call (e_op e) (read s r) with
  | Ok ox => (set_cache s id (Cache (last_x (caches s id)) (Some ox)), Ok tt)
  | Raise x => (s, Raise x)
  end.
(** last_ox or last_ox - data *)
Definition residual (s : state) (id : nat) (e : element) : result array :=
  match last_ox (caches s id), e_data e with
  | Some ox, None => Ok ox
  | Some ox, Some d => minus ox d
  | None, None => Raise AttributeError
  | None, Some _ => Raise TypeError
  end.
(** _call, _diff, _data_call, _data_diff, 260-278 *)
Definition refresh (s : state) (id r : nat) (e : element) : state * result unit :=
  match is_last s id r with Raise x => (s, Raise x) | Ok true => (s, Ok tt) | Ok false => store_x s id r e end.
Definition element_call (s : state) (id r : nat) : state * result K :=
  match nth_error (elements s) id with
  | None => (s, Raise IndexError)
  | Some e => let '(s, u) := refresh s id r e in (s, _ <- u ;; y <- residual s id e ;; Ok (n_call (e_norm e) y))
  end.
Definition element_diff (s : state) (id r : nat) : state * result array :=
  match nth_error (elements s) id with
  | None => (s, Raise IndexError)
  | Some e => let '(s, u) := refresh s id r e in (s, _ <- u ;; y <- residual s id e ;; o_T (e_op e) (n_diff (e_norm e) y))
  end.
(** Criterion.__call__ and diff, 357-361; no criterion is empty *)
Fixpoint component_call (s : state) (a : component) (r : nat) : state * result K :=
  match a with
  | El id => element_call s id r
  | Cr l =>
      (fix go s l acc :=
         match l with
         | [] => (s, Ok acc)
         | a :: l => let '(s, v) := component_call s a r in match v with Ok v => go s l (acc + v) | Raise x => (s, Raise x) end
         end) s l 0
  end.
Fixpoint component_diff (s : state) (a : component) (r : nat) : state * result array :=
  match a with
  | El id => element_diff s id r
  | Cr l =>
      (fix go s l (acc : option array) :=
         match l with
         | [] => (s, match acc with Some v => Ok v | None => Raise IndexError end)
         | a :: l =>
             let '(s, v) := component_diff s a r in
             match v with
             | Ok v => match match acc with None => Ok v | Some w => plus w v end with Ok v => go s l (Some v) | Raise x => (s, Raise x) end
             | Raise x => (s, Raise x)
             end
         end) s l None
  end.

(** What a user does: create an array, change one in place, create an element, multiply and add elements and criteria, evaluate them. *)
Inductive event :=
| NewArray (v : array) | Write (i : nat) (v : array) | NewElement (N : norm) (o : oper) (data : option (list nat * array))
| Scale (c : K) (i : nat) | Sum (i j : nat) | SumZero (i : nat) | Call (i r : nat) | Diff (i r : nat).
Inductive output := Nothing | Error (e : exn) | Value (v : K) | Gradient (g : array).
Definition out {X} (f : X -> output) (r : result X) : output := match r with Ok x => f x | Raise e => Error e end.
Fixpoint set_nth (l : list array) (i : nat) (v : array) : list array := match l, i with [], _ => [] | _ :: l, O => v :: l | a :: l, S i => a :: set_nth l i v end.
Definition push (s : state) (es : list element) (c : component) : state := State (arrays s) (user s) es (caches s) (handles s ++ [c]).
Definition act (s : state) (e : event) : state * output :=
  match e with
  | NewArray v => let '(s, r) := alloc s v in (State (arrays s) (user s ++ [r]) (elements s) (caches s) (handles s), Nothing)
  | Write i v => match nth_error (user s) i with Some r => (State (set_nth (arrays s) r v) (user s) (elements s) (caches s) (handles s), Nothing) | None => (s, Error IndexError) end
  | NewElement N o data =>
      match make_element N o data with Ok e => (push s (elements s ++ [e]) (El (length (elements s))), Nothing) | Raise x => (s, Error x) end
  | Scale c i =>
      match nth_error (handles s) i with Some a => let '(es, a) := scale c (elements s) a in (push s es a, Nothing) | None => (s, Error IndexError) end
  | Sum i j =>
      match nth_error (handles s) i, nth_error (handles s) j with
      | Some a, Some b => match add (elements s) a b with Ok c => (push s (elements s) c, Nothing) | Raise x => (s, Error x) end
      | _, _ => (s, Error IndexError)
      end
  | SumZero i =>
      match nth_error (handles s) i with
      | Some a => match add_zero (elements s) a with Ok c => (push s (elements s) c, Nothing) | Raise x => (s, Error x) end
      | None => (s, Error IndexError)
      end
  | Call i r =>
      match nth_error (handles s) i, nth_error (user s) r with
      | Some a, Some r => let '(s, v) := component_call s a r in (s, out Value v)
      | _, _ => (s, Error IndexError)
      end
  | Diff i r =>
      match nth_error (handles s) i, nth_error (user s) r with
      | Some a, Some r => let '(s, v) := component_diff s a r in (s, out Gradient v)
      | _, _ => (s, Error IndexError)
      end
  end.
Fixpoint run (s : state) (l : list event) : list output := match l with [] => [] | e :: l => let '(s, o) := act s e in o :: run s l end.
Definition start : state := State [] [] [] (fun _ => Cache None None) [].

(** optimal_step, linesearch.py 24-55: the elements of a criterion have no attribute norm if they are criteria; None stands for a division by zero *)
Definition plain_norm (N : norm) : norm := match n_kind N with KNorm2 => N | _ => make_norm2 None end.
Fixpoint optimal_sum (es : list element) (l : list component) (d : array) : result K :=
  match l with
  | [] => Ok 0
  | Cr _ :: _ => Raise AttributeError
  | El id :: l =>
      match nth_error es id with
      | None => Raise IndexError
      | Some e => y <- o_call (e_op e) d ;; t <- optimal_sum es l d ;; Ok (n_call (plain_norm (e_norm e)) y + t)
      end
  end.
Definition optimal_step (es : list element) (l : list component) (d g : array) : result (option K) :=
  q <- optimal_sum es l d ;; Ok (if eqb q 0 then None else Some (div (- div (dot d g) two) q)).
(** Backtracking.__call__, linesearch.py 64-78: [f] is the criterion along the line, and [a] is the optimal step *)
Fixpoint backtrack (i : nat) (tau f0 fi : K) (f : K -> K) (a : K) : K :=
  match i with O => a | S i => if ltb f0 fi then backtrack i tau f0 (f (a * tau)) f (a * tau) else a end.
Definition backtracking (maxiter : nat) (tau f0 : K) (f : K -> K) (a : K) : K := backtrack maxiter tau f0 (two * f0) f a.
End Criterions.
Arguments norm : clear implicits. Arguments oper : clear implicits. Arguments element : clear implicits. Arguments state : clear implicits. Arguments event : clear implicits.
Arguments output : clear implicits. Arguments cache : clear implicits.

(** huber, 65-72, of an array of integers: t_out has the data type of t, the values are truncated when they are assigned *)
Definition truncate (q : Q) : Z := Z.quot (Qnum q) (Zpos (Qden q)).
Definition huber_int (delta : Q) (t : Z) : Z :=
  if Qle_bool delta (inject_Z (Z.abs t)) then truncate (2 * delta * inject_Z (Z.abs t) - delta * delta) else (Z.abs t * Z.abs t)%Z.
