(** C10, C11 and C12 for arbitrary operators and arbitrary sound rules: the loops that simplify a product, a sum or an
    element-wise product of operators do not change what it computes. *)
From Coq Require Import Permutation.
From Verif Require Import Base Algebra EngineModel EngineSpec EngineProofs SliceModel.

(** C10.  Whatever the operators, their relation [den] between inputs and outputs and their sound rules, the operands that
    are left when the loop ends have the same composition as the operands given. *)
Theorem C10_engine {op X} (den : op -> X -> X -> Prop) (good : op -> Prop) (rules : op -> op -> list (rule op)) :
  (forall o1 o2, good o1 -> good o2 -> Forall (sound_rule den good o1 o2) (rules o1 o2)) ->
  forall fuel ops ops', Forall good ops -> comp_rules rules fuel ops = ret ops' ->
    forall x y, composes den ops x y -> composes den ops' x y.
Proof. intros H fuel ops ops' G E. apply (comp_rules_sound den good rules H fuel ops ops' G E). Qed.

(** The loop ends, after a number of steps bounded by the number of operands and their weights, when every rule merges the pair
    into one operator, or lowers the total weight of the pair. (Without tuples, every weight can be 0: see below.) *)
Theorem C10_engine_terminates {op X} (den : op -> X -> X -> Prop) (good : op -> Prop) (rules : op -> op -> list (rule op)) (weight : op -> nat) :
  (forall o1 o2, good o1 -> good o2 -> Forall (sound_rule den good o1 o2) (rules o1 o2)) ->
  (forall o1 o2, good o1 -> good o2 -> first_rule (rules o1 o2) o1 o2 <> None) ->
  (forall o1 o2 n, good o1 -> good o2 -> first_rule (rules o1 o2) o1 o2 = ret (Some n) ->
     weights weight (list_of_news n) < weights weight [o1; o2]) ->
  forall fuel ops, Forall good ops -> (weights weight ops + 1) * (weights weight ops + 1) < fuel -> comp_rules rules fuel ops <> None.
Proof. intros H1 H2 H3. apply (comp_rules_terminates den good rules H1 weight H2 H3). Qed.

(** With rules that only merge, (n + 1)^2 + 1 steps are enough for n operands. *)
Theorem C10_engine_merging {op X} (den : op -> X -> X -> Prop) (good : op -> Prop) (rules : op -> op -> list (rule op)) :
  (forall o1 o2, good o1 -> good o2 -> Forall (sound_rule den good o1 o2) (rules o1 o2)) ->
  (forall o1 o2, good o1 -> good o2 -> first_rule (rules o1 o2) o1 o2 <> None) ->
  (forall o1 o2 n, good o1 -> good o2 -> first_rule (rules o1 o2) o1 o2 = ret (Some n) -> exists o, n = One o) ->
  forall fuel ops, Forall good ops -> (length ops + 1) * (length ops + 1) < fuel -> comp_rules rules fuel ops <> None.
Proof.
  intros H1 H2 H3 fuel ops G Hf. apply (comp_rules_terminates den good rules H1 (fun _ => 0) H2).
  - intros o1 o2 n G1 G2 E. destruct (H3 o1 o2 n G1 G2 E) as [o ->]. simpl. lia.
  - exact G.
  - assert (W : weights (fun _ : op => 0) ops = length ops) by (induction ops; simpl; [reflexivity|]; inversion G; rewrite IHops; auto; simpl in *; lia).
    rewrite W. exact Hf.
Qed.

(** When the loop ends, no rule applies to two neighbours. *)
Theorem C10_engine_exhausts {op} (rules : op -> op -> list (rule op)) : forall fuel ops ops', comp_rules rules fuel ops = ret ops' ->
  forall l1 a b l2, ops' = l1 ++ a :: b :: l2 -> first_rule (rules a b) a b = ret None.
Proof.
  intros fuel ops ops' E l1 a b l2 ->. apply (comp_rules_settled rules fuel ops _ E (length l1) a b); [lia| |].
  - rewrite nth_error_app2, Nat.sub_diag by lia. reflexivity.
  - rewrite nth_error_app2 by lia. replace (S (length l1) - length l1) with 1 by lia. reflexivity.
Qed.

(** Termination does not hold for every set of sound rules: a sound rule that exchanges two commuting operators
    makes the loop run forever. *)
Theorem C10_engine_terminates_refuted : exists (rules : bool -> bool -> list (rule bool)) (den : bool -> Z -> Z -> Prop),
  (forall o1 o2, Forall (sound_rule den (fun _ => True) o1 o2) (rules o1 o2))
  /\ forall fuel, comp_rules rules fuel [true; false] = None.
Proof.
  exists (fun _ _ => [fun o1 o2 : bool => ret (if Bool.eqb o1 o2 then None else Some (Tuple [o2; o1]))]).
  exists (fun (o : bool) (x y : Z) => y = if o then (2 * x)%Z else (3 * x)%Z). split.
  - intros o1 o2. constructor; [|constructor]. intros n E. apply ret_inj in E.
    destruct (Bool.eqb o1 o2) eqn:B; [discriminate|]. injection E as <-. split; [repeat constructor|].
    intros x y [z [[w [-> ->]] ->]]. exists (if o1 then 2 * w else 3 * w)%Z. split; [exists w; split; reflexivity|]. destruct o1, o2; try discriminate B; cbv beta iota; ring.
  - intros fuel. unfold comp_rules. simpl. enough (H : forall b, comp_loop (fun _ _ : bool => [fun o1 o2 : bool => ret (if Bool.eqb o1 o2 then None else Some (Tuple [o2; o1]))]) fuel 1 [b; negb b] = None) by exact (H true).
    induction fuel as [|fuel IH]; intros b; [reflexivity|]. specialize (IH (negb b)). destruct b; exact IH.
Qed.

(** C11.  The same for a sum or an element-wise product: [comb] is the commutative and associative operation on the outputs. *)
Theorem C11_engine {op X} (den : op -> X -> X -> Prop) (comb : X -> X -> X -> Prop) (good : op -> Prop) rules is_homothety is_zero :
  commutative_operation comb ->
  (forall o o', good o -> good o' -> Forall (sound_rule1 den comb good o o') (rules o)) ->
  (forall o, good o -> is_homothety o = true -> is_zero o = false) ->
  forall fuel ops ops', Forall good ops -> comm_rules rules is_homothety is_zero fuel ops = ret ops' ->
    forall x y, combines den comb ops x y -> combines den comb ops' x y.
Proof. intros Hc Hr Hz fuel ops ops' G E. apply (comm_rules_sound den comb good Hc rules Hr is_homothety is_zero Hz fuel ops ops' G E). Qed.

(** Whatever the order in which the operands are given. *)
Theorem C11_engine_order {op X} (den : op -> X -> X -> Prop) (comb : X -> X -> X -> Prop) (good : op -> Prop) rules is_homothety is_zero :
  commutative_operation comb ->
  (forall o o', good o -> good o' -> Forall (sound_rule1 den comb good o o') (rules o)) ->
  (forall o, good o -> is_homothety o = true -> is_zero o = false) ->
  forall fuel ops perm ops', Forall good ops -> Permutation ops perm -> comm_rules rules is_homothety is_zero fuel perm = ret ops' ->
    forall x y, combines den comb ops x y -> combines den comb ops' x y.
Proof.
  intros Hc Hr Hz fuel ops perm ops' G P E x y H. apply (comm_rules_sound den comb good Hc rules Hr is_homothety is_zero Hz fuel perm ops').
  - eapply good_perm; eauto.
  - exact E.
  - eapply combines_perm; eauto.
Qed.

Theorem C11_engine_terminates {op X} (den : op -> X -> X -> Prop) (comb : X -> X -> X -> Prop) (good : op -> Prop) rules is_homothety is_zero :
  commutative_operation comb ->
  (forall o o', good o -> good o' -> Forall (sound_rule1 den comb good o o') (rules o)) ->
  (forall o, good o -> forall r o', good o' -> In r (rules o) -> r o o' <> None) ->
  forall fuel ops, Forall good ops -> (length ops + 1) * (length ops + 1) < fuel -> comm_rules rules is_homothety is_zero fuel ops <> None.
Proof. intros Hc Hr Ht. apply (comm_rules_term den comb good rules Hr is_homothety is_zero Ht). Qed.

(** C12.  The homothety stage: the operands are cut in maximal runs of linear and of non-linear operators; the runs of
    non-linear operators are left as they are; a run of linear operators is replaced by a run with the same composition and at
    most one scalar factor; so nothing moves from a run to another, and the product is the same. *)
Theorem C12_scalars {K : cring} {op X} (keqb : K -> K -> bool) (den : op -> X -> X -> Prop) (scal : K -> X -> X) (good : op -> Prop)
  linear is_identity scalar_of identity homothety left right :
  (forall a b, keqb a b = true -> a = b) ->
  scaling scal ->
  scalar_operators den scal good linear scalar_of identity homothety ->
  (forall o d, good o -> Forall (sound_absorption den good o (homothety d)) (left o)) ->
  (forall o d, good o -> Forall (sound_absorption den good (homothety d) o) (right o)) ->
  forall ops ops', Forall good ops ->
    homothety_stage keqb linear is_identity scalar_of identity homothety left right ops = ret ops' ->
    concat (map snd (groupby linear ops)) = ops
    /\ Forall (fun g => Forall (fun o => linear o = fst g) (snd g)) (groupby linear ops)
    /\ (exists gs', ops' = concat gs' /\ Forall2 (run_kept den scalar_of) (groupby linear ops) gs')
    /\ forall x y, composes den ops x y -> composes den ops' x y.
Proof.
  intros Hk Hs Ho Hl Hr ops ops' G E. split; [apply groupby_concat|]. split; [apply groupby_runs|].
  apply (homothety_stage_sound keqb den scal good linear is_identity scalar_of identity homothety left right Hk Hs Ho Hl Hr ops ops' G E).
Qed.

(** The rule of BlockSliceOperator for homotheties is not a sound one: the elements outside the slices are not multiplied. *)
Theorem C12_block_slice_refuted : exists (d : Zring) (bs : list (block (K := Zring))) (x : list Zring),
  Forall (fun b => forall k v, snd b (map (rmul k) v) = map (rmul k) (snd b v)) bs
  /\ slice_direct (slice_homothety d bs) x <> slice_direct bs (map (rmul d) x).
Proof.
  exists 2%Z, [([0], map (rmul (c := Zring) 3%Z))], [1; 1]%Z. split; [|simpl; discriminate].
  constructor; [|constructor]. intros k v. simpl. rewrite !map_map. apply map_ext. intros a. change (3 * (k * a) = k * (3 * a))%Z. lia.
Qed.

(** Examples.  Operators on the integers: Conv n and Sc n multiply by n, Neg negates, Tr n adds n. *)
Inductive eop := Conv (n : Z) | Sc (n : Z) | Neg | Tr (n : Z).
Definition eden (o : eop) (x y : Z) : Prop :=
  y = match o with Conv n | Sc n => (n * x)%Z | Neg => (- x)%Z | Tr n => (x + n)%Z end.
Definition erules (o1 o2 : eop) : list (rule eop) :=
  [fun o1 o2 => ret (match o1, o2 with
                     | Conv n, Neg => Some (Tuple [Neg; Sc n])
                     | Sc m, Sc n => Some (One (Sc (m * n)%Z))
                     | Tr m, Tr n => Some (One (Tr (m + n)%Z))
                     | _, _ => None
                     end)].
Example ex_C10_sound : forall o1 o2, Forall (sound_rule eden (fun _ => True) o1 o2) (erules o1 o2).
Proof.
  intros o1 o2. unfold erules. constructor; [|constructor]. intros n E. apply ret_inj in E. split; [apply Forall_forall; auto|].
  intros x y. destruct o1, o2; try discriminate; injection E as <-; unfold eden; simpl; intros [z [[w [-> ->]] ->]].
  - exists (n0 * w)%Z. split; [exists w; auto|lia].
  - exists w. split; [reflexivity|lia].
  - exists w. split; [reflexivity|lia].
Qed.
Example ex_C10 : comp_rules erules 1000 [Conv 2; Neg; Sc 3; Sc 4; Tr 1; Tr 2]%Z = ret [Neg; Sc 24; Tr 3]%Z.
Proof. reflexivity. Qed.
Example ex_C10_weights o1 o2 n : first_rule (erules o1 o2) o1 o2 = ret (Some n) ->
  weights (fun o => match o with Conv _ => 1 | _ => 0 end) (list_of_news n) < weights (fun o => match o with Conv _ => 1 | _ => 0 end) [o1; o2].
Proof. destruct o1, o2; simpl; try discriminate; intros E; apply ret_inj in E; injection E as <-; simpl; lia. Qed.

Example ex_C11 :
  comm_rules (fun _ : eop => [fun o1 o2 => ret (match o1, o2 with Sc m, Sc n => Some (Sc (m + n)%Z) | _, _ => None end)])
    (fun o => match o with Sc _ => true | _ => false end) (fun _ => false) 1000 [Tr 1; Sc 2; Neg; Sc 3; Conv 4; Sc 5]%Z
  = ret [Sc 10; Tr 1; Neg; Conv 4]%Z.
Proof. reflexivity. Qed.
Example ex_C12 :
  homothety_stage (K := Zring) Z.eqb (fun o => match o with Tr _ => false | _ => true end) (fun o => match o with Sc 1%Z => true | _ => false end)
    (fun o => match o with Sc n => if (n =? 1)%Z then None else Some n | _ => None end) (Sc 1%Z) Sc
    (fun o => match o with Conv _ => [fun o h => ret (match o, h with Conv m, Sc n => Some (Conv (m * n)%Z) | _, _ => None end)] | _ => [] end) (fun _ => [])
    [Sc 2; Neg; Sc 3; Tr 1; Sc 5; Conv 7; Sc 6]%Z
  = ret [Sc 6; Sc 1; Neg; Sc 1; Tr 1; Sc 1; Conv 210; Sc 1]%Z.
Proof. reflexivity. Qed.
Example ex_C12_operators : scalar_operators (K := Zring) eden (fun k x => (k * x)%Z) (fun _ => True) (fun o => match o with Tr _ => false | _ => true end)
    (fun o => match o with Sc n => if (n =? 1)%Z then None else Some n | _ => None end) (Sc 1%Z) Sc.
Proof.
  split; auto.
  - intros o _ L k x y. unfold eden. destruct o; try discriminate; (split; [intros ->; eexists; split; [reflexivity|]; simpl; lia|intros [y' [-> ->]]; simpl; lia]).
  - intros [] d x y _; try discriminate. destruct (n =? 1)%Z; [discriminate|]. intros [= ->]. auto.
  - intros x. unfold eden. lia.
  - intros d x. reflexivity.
Qed.

Print Assumptions C10_engine.
Print Assumptions C10_engine_terminates.
Print Assumptions C10_engine_exhausts.
Print Assumptions C10_engine_merging.
Print Assumptions C10_engine_terminates_refuted.
Print Assumptions C11_engine.
Print Assumptions C11_engine_order.
Print Assumptions C11_engine_terminates.
Print Assumptions C12_scalars.
Print Assumptions C12_block_slice_refuted.
