(** The rule lists of the operators: Operator.set_rule and del_rule, core.py 578-708, with Rule and BinaryRule,
    rules.py 31-107 and 177-224. *)
From Verif Require Import Base.

Section Rules.
Context {class : Type} (class_eqb subclass : class -> class -> bool) {pred : Type}.

(** A subject: one of the strings . C T H I IC IT IH, or a class (rules.py 91-107). *)
Inductive symbol := Dot | SC | ST | SH | SI | SIC | SIT | SIH.
Inductive subject := Str (s : symbol) | Cls (c : class).
Definition symbol_eqb (a b : symbol) : bool :=
  match a, b with
  | Dot, Dot | SC, SC | ST, ST | SH, SH | SI, SI | SIC, SIC | SIT, SIT | SIH, SIH => true
  | _, _ => false
  end.
Definition subject_eqb (a b : subject) : bool :=
  match a, b with Str x, Str y => symbol_eqb x y | Cls x, Cls y => class_eqb x y | _, _ => false end.
Definition is_dot (s : subject) : bool := subject_eqb s (Str Dot).

(** A binary rule: subjects and predicate; BinaryRule.__init__, rules.py 218-224, deduces the side of the reference and
    the other subject.  [reference] is true when the reference is the second operand. *)
Record rule := { subjects : subject * subject; predicate : pred }.
Definition reference (r : rule) : bool := is_dot (snd (subjects r)).
Definition other (r : rule) : subject := if reference r then fst (subjects r) else snd (subjects r).
Definition subjects_eqb (a b : subject * subject) : bool :=
  subject_eqb (fst a) (fst b) && subject_eqb (snd a) (snd b).

(** ids.index(rule.subjects) *)
Fixpoint index_of (ids : list (subject * subject)) (s : subject * subject) : option nat :=
  match ids with
  | [] => None
  | x :: ids' => if subjects_eqb x s then Some 0 else option_map S (index_of ids' s)
  end.
Fixpoint replace_at (l : list rule) (i : nat) (r : rule) : list rule :=
  match l, i with
  | [], _ => []
  | _ :: l', O => r :: l'
  | x :: l', S i' => x :: replace_at l' i' r
  end.
Definition insert_at (l : list rule) (i : nat) (r : rule) : list rule := firstn i l ++ r :: skipn i l.
Fixpoint delete_at (l : list rule) (i : nat) : list rule :=
  match l, i with
  | [], _ => []
  | _ :: l', O => l'
  | x :: l', S i' => x :: delete_at l' i'
  end.
(** list.index(True) *)
Fixpoint index_true (l : list bool) : option nat :=
  match l with [] => None | b :: l' => if b then Some 0 else option_map S (index_true l') end.

(** In set_rule, 650-671: the position of a rule on the class [cls], given the rules of the list; the classes are those
    from the first rule on a class (issubclass raises TypeError on a string there: [None]). *)
Definition is_class (s : subject) : bool := match s with Cls _ => true | Str _ => false end.
Fixpoint classes (l : list subject) : option (list class) :=
  match l with
  | [] => Some []
  | Cls c :: l' => option_map (cons c) (classes l')
  | Str _ :: _ => None
  end.
Definition class_position (l : list rule) (cls : class) : option nat :=
  match index_true (map (fun r => is_class (other r)) l) with
  | None => Some (length l)
  | Some index =>
      match classes (map other (skipn index l)) with
      | None => None
      | Some cs =>
          let is_subclass := map (fun c => subclass cls c) cs in
          let is_supclass := map (fun c => subclass c cls) cs in
          Some (index + match index_true is_subclass with
                        | Some i => i
                        | None => match index_true (rev is_supclass) with
                                  | Some i => length is_supclass - i
                                  | None => 0
                                  end
                        end)
      end
  end.

(** set_rule on the list it has chosen, 631-671. *)
Definition set_rule_list (r : rule) (l : list rule) : result (list rule) :=
  match index_of (map subjects l) (subjects r) with
  | Some i => Ok (replace_at l i r)
  | None =>
      match other r with
      | Str _ => Ok (insert_at l 0 r)
      | Cls c => match class_position l c with
                 | Some i => Ok (insert_at l i r)
                 | None => Raise TypeError
                 end
      end
  end.
(** del_rule on the list it has chosen, 706-707: index raises ValueError. *)
Definition del_rule_list (s : subject * subject) (l : list rule) : result (list rule) :=
  match index_of (map subjects l) s with
  | Some i => Ok (delete_at l i)
  | None => Raise ValueError
  end.

(** The lists of an operator, for the three operations (addition and multiplication are commutative, the composition has
    a left and a right list).  Unary rules are not modelled here: they have one subject and no class. *)
Inductive operation := Addition | Multiplication | Composition.
Record lists := { add_rules : list rule; mul_rules : list rule; left_rules : list rule; right_rules : list rule }.
Definition no_rules : lists := {| add_rules := []; mul_rules := []; left_rules := []; right_rules := [] |}.
Definition swap (r : rule) : rule := {| subjects := (snd (subjects r), fst (subjects r)); predicate := predicate r |}.

(** The choice of the list, 617-630.  A rule of a commutative operation whose second subject is '.' is reversed. *)
Definition set_rule (o : operation) (r : rule) (t : lists) : result lists :=
  match o with
  | Addition => let r := if reference r then swap r else r in
                l <- set_rule_list r (add_rules t) ;;
                Ok {| add_rules := l; mul_rules := mul_rules t; left_rules := left_rules t; right_rules := right_rules t |}
  | Multiplication => let r := if reference r then swap r else r in
                l <- set_rule_list r (mul_rules t) ;;
                Ok {| add_rules := add_rules t; mul_rules := l; left_rules := left_rules t; right_rules := right_rules t |}
  | Composition =>
      if reference r then
        l <- set_rule_list r (right_rules t) ;;
        Ok {| add_rules := add_rules t; mul_rules := mul_rules t; left_rules := left_rules t; right_rules := l |}
      else
        l <- set_rule_list r (left_rules t) ;;
        Ok {| add_rules := add_rules t; mul_rules := mul_rules t; left_rules := l; right_rules := right_rules t |}
  end.

(** Several classes at once, 597-605: one call for each, in reverse order. *)
Fixpoint set_rules (o : operation) (rs : list rule) (t : lists) : result lists :=
  match rs with
  | [] => Ok t
  | r :: rs' => t1 <- set_rules o rs' t ;; set_rule o r t1
  end.

(** del_rule, 673-708 *)
Definition del_rule (o : operation) (s : subject * subject) (t : lists) : result lists :=
  let right := is_dot (snd s) in
  match o with
  | Addition => l <- del_rule_list (if right then (snd s, fst s) else s) (add_rules t) ;;
                Ok {| add_rules := l; mul_rules := mul_rules t; left_rules := left_rules t; right_rules := right_rules t |}
  | Multiplication => l <- del_rule_list (if right then (snd s, fst s) else s) (mul_rules t) ;;
                Ok {| add_rules := add_rules t; mul_rules := l; left_rules := left_rules t; right_rules := right_rules t |}
  | Composition =>
      if right then
        l <- del_rule_list s (right_rules t) ;;
        Ok {| add_rules := add_rules t; mul_rules := mul_rules t; left_rules := left_rules t; right_rules := l |}
      else
        l <- del_rule_list s (left_rules t) ;;
        Ok {| add_rules := add_rules t; mul_rules := mul_rules t; left_rules := l; right_rules := right_rules t |}
  end.

(** A history of calls; those that raise leave the operator as it is. *)
Inductive call := Set_ (o : operation) (r : rule) | Del (o : operation) (s : subject * subject).
Definition exec (t : lists) (c : call) : lists :=
  match match c with Set_ o r => set_rule o r t | Del o s => del_rule o s t end with Ok t' => t' | Raise _ => t end.
Definition history (cs : list call) : lists := fold_left exec cs no_rules.

(** The rules tried for a pair in a composition, 2213-2224: the left rules of the first operand and the right rules of the
    second one, by increasing key (the sort is stable). [m1], [m2] are the lengths of the method resolution orders of the
    two operands' classes. *)
Variable mro : class -> nat.
Definition key_rule (m1 m2 : nat) (r : rule) : Z :=
  match other r with
  | Str _ => 0
  | Cls c => if reference r then 1000 - Z.of_nat (mro c) - Z.of_nat m2 else 1000 - Z.of_nat m1 - Z.of_nat (mro c)
  end%Z.
(** list.sort(key): insertion sort, stable. *)
Fixpoint insert_sorted (k : rule -> Z) (r : rule) (l : list rule) : list rule :=
  match l with
  | [] => [r]
  | x :: l' => if (k r <=? k x)%Z then r :: x :: l' else x :: insert_sorted k r l'
  end.
Fixpoint sort (k : rule -> Z) (l : list rule) : list rule :=
  match l with [] => [] | r :: l' => insert_sorted k r (sort k l') end.
Definition rules_for_pair (m1 m2 : nat) (t1 t2 : lists) : list rule :=
  sort (key_rule m1 m2) (left_rules t1 ++ right_rules t2).
End Rules.
Arguments subject : clear implicits.
Arguments rule : clear implicits.
Arguments lists : clear implicits.
Arguments call : clear implicits.
