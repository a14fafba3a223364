(** C09: the rules of an operator are kept without duplicates, rules on symbols first, then rules on classes with the
    more specific classes before the more general ones, whatever the history of set_rule and del_rule calls. *)
From Verif Require Import Base RuleModel RuleSpec RuleProofs.

(** In every history of calls, each list is ordered and has no two rules with the same subjects; and a call of set_rule
    never fails. *)
Theorem C09_history {class} (class_eqb subclass : class -> class -> bool) {pred} :
  hierarchy class_eqb subclass ->
  forall (cs : list (call class pred)),
    all_lists (fun l => well_ordered class_eqb subclass l /\ unique l) (history class_eqb subclass cs).
Proof.
  intros H cs. destruct (history_good class_eqb subclass H cs) as [A [M [L R]]].
  repeat split; try (apply ordered_spec); first [apply A|apply M|apply L|apply R].
Qed.

(** Setting a rule after any history succeeds: the rule is in its list, the other rules of the list are the same in the
    same order, a redefinition takes the place of the former rule, and no other list changes. *)
Theorem C09_set_rule {class} (class_eqb subclass : class -> class -> bool) {pred} :
  hierarchy class_eqb subclass ->
  forall (cs : list (call class pred)) o r,
    let t := history class_eqb subclass cs in
    exists t', set_rule class_eqb subclass o r t = Ok t'
      /\ (let s := kept_as class_eqb o (subjects r) in
          let l := list_of class_eqb o (subjects r) t in let l' := list_of class_eqb o (subjects r) t' in
          In {| subjects := s; predicate := predicate r |} l' /\ others class_eqb s l' = others class_eqb s l
          /\ (In s (map subjects l) -> map subjects l' = map subjects l)
          /\ (~ In s (map subjects l) -> length l' = S (length l)))
      /\ forall o' s', ~ same_list class_eqb o (subjects r) o' s' -> list_of class_eqb o' s' t' = list_of class_eqb o' s' t.
Proof. intros H cs o r. apply set_rule_effect; [exact H|apply history_good, H]. Qed.

(** Setting a rule for several classes at once is setting it for each of them, the last one first. *)
Theorem C09_set_rules {class} (class_eqb subclass : class -> class -> bool) {pred} :
  hierarchy class_eqb subclass ->
  forall (cs : list (call class pred)) o rs,
    set_rules class_eqb subclass o rs (history class_eqb subclass cs) = Ok (history class_eqb subclass (cs ++ rev (map (Set_ o) rs))).
Proof. intros H cs o rs. apply set_rules_history, H. Qed.

(** Deleting a rule after any history removes it and nothing else; if there is no such rule, ValueError is raised. *)
Theorem C09_del_rule {class} (class_eqb subclass : class -> class -> bool) {pred} :
  hierarchy class_eqb subclass ->
  forall (cs : list (call class pred)) o s,
    let t := history class_eqb subclass cs in
    let k := kept_as class_eqb o s in
    (In k (map subjects (list_of class_eqb o s t)) ->
       exists t', del_rule class_eqb o s t = Ok t' /\ list_of class_eqb o s t' = others class_eqb k (list_of class_eqb o s t)
         /\ length (list_of class_eqb o s t) = S (length (list_of class_eqb o s t'))
         /\ forall o' s', ~ same_list class_eqb o s o' s' -> list_of class_eqb o' s' t' = list_of class_eqb o' s' t)
    /\ (~ In k (map subjects (list_of class_eqb o s t)) -> del_rule class_eqb o s t = Raise ValueError).
Proof. intros H cs o s. apply (del_rule_effect class_eqb subclass H). apply history_good, H. Qed.

(** The rules tried for a pair of operands in a composition are those of the left list of the first and of the right list of
    the second, each once; symbols first, left before right; and on either side the rule on a subclass is tried before the
    rule on its base class.  The method resolution orders have less than 500 classes and that of a proper subclass is longer. *)
Theorem C09_pair {class} (class_eqb subclass : class -> class -> bool) {pred} (mro : class -> nat) :
  hierarchy class_eqb subclass ->
  (forall c d, subclass d c = true -> d <> c -> mro c < mro d) -> (forall c, mro c < 500) ->
  forall (cs1 cs2 : list (call class pred)) m1 m2, m1 < 500 -> m2 < 500 ->
    let t1 := history class_eqb subclass cs1 in let t2 := history class_eqb subclass cs2 in
    let l := rules_for_pair class_eqb mro m1 m2 t1 t2 in
    (forall r, In r l <-> In r (left_rules t1) \/ In r (right_rules t2))
    /\ length l = length (left_rules t1) + length (right_rules t2)
    /\ (forall i j r s, i < j -> nth_error l i = Some r -> nth_error l j = Some s ->
          reference class_eqb r = reference class_eqb s -> ~ must_follow class_eqb subclass r s)
    /\ (let symbol r := match other class_eqb r with Str _ => true | Cls _ => false end in
        filter symbol l = filter symbol (left_rules t1) ++ filter symbol (right_rules t2)).
Proof.
  intros H Hm Bm cs1 cs2 m1 m2 B1 B2 t1 t2 l.
  destruct (pair_order class_eqb subclass mro Hm m1 m2 t1 t2 Bm B1 B2
    (proj1 (history_sides class_eqb subclass H cs1)) (proj2 (history_sides class_eqb subclass H cs2))) as [A [B [C D]]].
  split; [exact A|]. split; [exact B|]. split; [exact C|]. simpl.
  assert (Q : forall m, filter (fun r : rule class pred => match other class_eqb r with Str _ => true | Cls _ => false end) m = filter (is_symbol class_eqb) m).
  { intros m. apply filter_ext. intros r. unfold is_symbol. destruct (other class_eqb r); reflexivity. }
  rewrite !Q. exact D.
Qed.

(** A history on the classes 0 (Operator) > 1 (Diagonal) > 2 (Identity), 3 (Block): the library's Identity rules. *)
Definition ex_sub (c d : nat) : bool := (d =? 0) || (c =? d) || ((c =? 2) && (d =? 1)).
Example ex_hierarchy : hierarchy Nat.eqb ex_sub.
Proof.
  unfold ex_sub. split.
  - apply Nat.eqb_eq.
  - intros c. rewrite Nat.eqb_refl. destruct (c =? 0); reflexivity.
  - intros c d e. rewrite !orb_true_iff, !andb_true_iff, !Nat.eqb_eq. lia.
  - intros c d. rewrite !orb_true_iff, !andb_true_iff, !Nat.eqb_eq. lia.
Qed.
Example ex_C09_history :
  let r s p := {| subjects := (Str Dot, s); predicate := p |} in
  map (fun x => (other Nat.eqb x, predicate x))
    (left_rules (history Nat.eqb ex_sub [Set_ Composition (r (Cls 0) 10); Set_ Composition (r (Cls 1) 11); Set_ Composition (r (Cls 3) 13);
       Set_ Composition (r (Cls 2) 12); Set_ Composition (r (Str ST) 20); Set_ Composition (r (Cls 1) 21); Del Composition (Str Dot, Cls 3);
       Del Composition (Str Dot, Cls 3)]))
  = [(Str ST, 20); (Cls 2, 12); (Cls 1, 21); (Cls 0, 10)].
Proof. reflexivity. Qed.
Example ex_C09_pair :
  let r s p := {| subjects := (Str Dot, s); predicate := p |} in
  let q s p := {| subjects := (s, Str Dot); predicate := p |} in
  let t1 := history Nat.eqb ex_sub [Set_ Composition (r (Cls 0) 10); Set_ Composition (r (Cls 2) 11); Set_ Composition (r (Str ST) 12)] in
  let t2 := history Nat.eqb ex_sub [Set_ Composition (q (Cls 0) 20); Set_ Composition (q (Cls 1) 21); Set_ Composition (q (Str ST) 22)] in
  map predicate (rules_for_pair Nat.eqb (fun c => 2 + c) 5 5 t1 t2) = [12; 22; 11; 21; 10; 20].
Proof. reflexivity. Qed.

Print Assumptions C09_history.
Print Assumptions C09_set_rule.
Print Assumptions C09_del_rule.
Print Assumptions C09_pair.
Print Assumptions C09_set_rules.
