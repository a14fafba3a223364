(** The loops that apply the simplification rules to the operands of a composite operator: core.py 1867-1933
    (addition, element-wise multiplication), 2182-2273 (composition) and 2435-2490 (homotheties of a composition).

    The operators and their rules are arbitrary here.  A rule is a function of the two operands, as when BinaryRule.__call__
    (rules.py 226-254) is called: it returns None, or the predicate.  Not modelled: the debugging output, the test of
    rule_manager['none'] (C30), and CompositionOperator._merge (2705-2715), which copies shapes, communicators and other
    attributes into the new operator but does not change what it computes. *)
From Verif Require Import Base Algebra.

(** What an evaluation gives: [None] when it has used up the number of steps it was given. *)
Definition out (A : Type) : Type := option (result A).
Definition ret {A} (a : A) : out A := Some (Ok a).
Definition fail {A} (e : exn) : out A := Some (Raise e).
Definition obind {A B} (m : out A) (f : A -> out B) : out B :=
  match m with None => None | Some (Raise e) => Some (Raise e) | Some (Ok a) => f a end.
Notation "x <~ m ;; k" := (obind m (fun x => k)) (at level 61, m at next level, right associativity).

Section Lists.
Context {A : Type}.
(** ops[i] = o and del ops[i] *)
Fixpoint set_at (l : list A) (i : nat) (o : A) : list A :=
  match l, i with
  | [], _ => []
  | _ :: l', O => o :: l'
  | x :: l', S i' => x :: set_at l' i' o
  end.
Fixpoint del_at (l : list A) (i : nat) : list A :=
  match l, i with
  | [], _ => []
  | _ :: l', O => l'
  | x :: l', S i' => x :: del_at l' i'
  end.
End Lists.

Section Composition.
Context {op : Type}.
(** The predicate of a rule: an operator, or a tuple of operators. *)
Inductive news := One (o : op) | Tuple (l : list op).
Definition rule := op -> op -> out (option news).
(** The rules for a pair, sorted: 2213-2224. *)
Variable rules : op -> op -> list rule.

(** The first rule that applies, 2229-2233. *)
Fixpoint first_rule (l : list rule) (o1 o2 : op) : out (option news) :=
  match l with
  | [] => ret None
  | r :: l' => n <~ r o1 o2 ;; match n with None => first_rule l' o1 o2 | Some _ => ret n end
  end.

(** The loop 2209-2262; [k] is i + 1. *)
Fixpoint comp_loop (fuel k : nat) (ops : list op) : out (list op) :=
  match fuel with
  | O => None
  | S fuel =>
      match k with
      | O => ret ops
      | S i =>
          match nth_error ops i, nth_error ops (S i) with
          | Some o1, Some o2 =>
              n <~ first_rule (rules o1 o2) o1 o2 ;;
              match n with
              | None => comp_loop fuel i ops
              | Some (Tuple [a; b]) =>
                  let ops := set_at (set_at ops i a) (S i) b in
                  if S i <? length ops - 1 then comp_loop fuel (S (S i)) ops else comp_loop fuel (S i) ops
              | Some (Tuple _) => fail NotImplementedError
              | Some (One o) =>
                  let ops := set_at (del_at ops (S i)) i o in
                  if i <? length ops - 1 then comp_loop fuel (S i) ops else comp_loop fuel i ops
              end
          | _, _ => fail IndexError
          end
      end
  end.
Definition comp_rules (fuel : nat) (ops : list op) : out (list op) :=
  if length ops <=? 1 then ret ops else comp_loop fuel (length ops - 1) ops.
End Composition.
Arguments news : clear implicits.
Arguments rule : clear implicits.

Section Commutative.
Context {op : Type}.
(** The rules of an operator for this operation (none if it has no entry, 1895-1897). A predicate that is a tuple of several
    operators is not handled by the loop and is left out. *)
Variable rules : op -> list (op -> op -> out (option op)).

Fixpoint first_rule1 (l : list (op -> op -> out (option op))) (o1 o2 : op) : out (option op) :=
  match l with
  | [] => ret None
  | r :: l' => n <~ r o1 o2 ;; match n with None => first_rule1 l' o1 o2 | Some _ => ret n end
  end.
(** The loop over j, 1900-1924, from the position [j] of [rest]. *)
Fixpoint find_merge (i j : nat) (oi : op) (rest : list op) : out (option (nat * op)) :=
  match rest with
  | [] => ret None
  | oj :: rest' =>
      if j =? i then find_merge i (S j) oi rest'
      else n <~ first_rule1 (rules oi) oi oj ;;
           match n with
           | Some o => ret (Some (j, o))
           | None => find_merge i (S j) oi rest'
           end
  end.
(** The loop over i, 1893-1928. *)
Fixpoint comm_loop (fuel i : nat) (ops : list op) : out (list op) :=
  match fuel with
  | O => None
  | S fuel =>
      match nth_error ops i with
      | None => ret ops
      | Some oi =>
          n <~ find_merge i 0 oi ops ;;
          match n with
          | None => comm_loop fuel (S i) ops
          | Some (j, o) =>
              let i' := if j <? i then i - 1 else i in
              comm_loop fuel i' (set_at (del_at ops j) i' o)
          end
      end
  end.
(** 1930-1937: the first homothety is moved to the front, and dropped if it is zero. *)
Variable is_homothety is_zero : op -> bool.
Fixpoint index_where (p : op -> bool) (l : list op) : option nat :=
  match l with [] => None | o :: l' => if p o then Some 0 else option_map S (index_where p l') end.
Definition move_homothety (ops : list op) : list op :=
  match index_where is_homothety ops with
  | None => ops
  | Some i =>
      match nth_error ops i with
      | None => ops
      | Some h =>
          let ops := del_at (h :: ops) (i + 1) in
          if is_zero h && (1 <? length ops) then del_at ops 0 else ops
      end
  end.
Definition comm_rules (fuel : nat) (ops : list op) : out (list op) :=
  if length ops <=? 1 then ret ops
  else ops' <~ comm_loop fuel 0 ops ;; ret (move_homothety ops').
End Commutative.

Section Homothety.
Context {K : cring} (keqb : K -> K -> bool) {op : Type}.
Variables (linear is_identity : op -> bool) (scalar_of : op -> option K) (identity : op) (homothety : K -> op).
(** [scalar_of o] is the data of a homothety that is not an identity operator.  [left o] and [right o] are the rules of [o]
    whose subjects are ('.', HomothetyOperator) and (HomothetyOperator, '.'). *)
Variables (left right : op -> list (op -> op -> out (option op))).

(** itertools.groupby(operands, flags.linear) *)
Fixpoint groupby (l : list op) : list (bool * list op) :=
  match l with
  | [] => []
  | o :: l' =>
      match groupby l' with
      | (b, g) :: gs => if Bool.eqb (linear o) b then (b, o :: g) :: gs else (linear o, [o]) :: (b, g) :: gs
      | [] => [(linear o, [o])]
      end
  end.
(** The product of the scalars and the operands with the homotheties replaced, 2455-2463 *)
Definition group_scalar (ops : list op) : K :=
  fold_left (fun s o => match scalar_of o with Some d => rmul s d | None => s end) ops r1.
Definition group_rest (ops : list op) : list op :=
  map (fun o => match scalar_of o with Some _ => identity | None => o end) ops.
(** 2470-2486: try to put h into one of the operands. *)
Fixpoint absorb (h : op) (ops : list op) : out (option (list op)) :=
  match ops with
  | [] => ret None
  | o :: ops' =>
      n <~ (if is_identity o then ret None
            else n <~ first_rule1 (left o) o h ;;
                 match n with Some _ => ret n | None => first_rule1 (right o) h o end) ;;
      match n with
      | Some o' => ret (Some (o' :: ops'))
      | None => r <~ absorb h ops' ;; ret (option_map (cons o) r)
      end
  end.
(** _apply_rule_homothety_linear, 2452-2490 *)
Definition homothety_group (ops : list op) : out (list op) :=
  if length ops <=? 1 then ret ops
  else
    let s := group_scalar ops in
    let ops := group_rest ops in
    if keqb s r1 then ret ops
    else
      let h := homothety s in
      r <~ absorb h ops ;;
      match r with Some ops => ret ops | None => ret (h :: ops) end.
(** _apply_rule_homothety, 2435-2450 *)
Fixpoint homothety_groups (gs : list (bool * list op)) : out (list op) :=
  match gs with
  | [] => ret []
  | (b, g) :: gs' =>
      g' <~ (if b then homothety_group g else ret g) ;;
      r <~ homothety_groups gs' ;; ret (g' ++ r)
  end.
Definition homothety_stage (ops : list op) : out (list op) := homothety_groups (groupby ops).
End Homothety.
