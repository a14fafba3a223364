(** C50: the MPI communicators of operators *)
From Verif Require Import Base CommsModel CommsSpec CommsProofs.

(** The memories met by a program: operators without operands, sums and products of existing operators *)
Inductive built : heap -> Prop :=
  | built_nil : built []
  | built_simple h k i o : built h -> k = Leaf \/ k = Getter -> built (h ++ [Node k i o])
  | built_sum h l h' r : built h -> Forall (fun o => o < length h) l -> new_sum h l = Ok (h', r) -> built h'
  | built_product h l h' r : built h -> Forall (fun o => o < length h) l -> new_product h l = Ok (h', r) -> built h'.

(** A sum or a block operator is refused if two known communicators of its operands are different *)
Theorem C50_sum_refused : forall h l, (exists e, new_sum h l = Raise e) <-> ~ (agree (map (fun o => n_in (at_ h o)) l) /\ agree (map (fun o => n_out (at_ h o)) l)).
Proof.
  intros h l. rewrite <- !several_iff. unfold new_sum. destruct (several _); [split; [intros _ (X & _); discriminate X|eauto]|]. destruct (several _); [split; [intros _ (_ & X); discriminate X|eauto]|].
  split; [|intros X; destruct X; auto]. intros (e & E). repeat destruct (propagate _ _ _ _ _). discriminate E.
Qed.
(** A product is refused if the input communicator of an operand and the output communicator of the next one are known and different *)
Theorem C50_product_refused : forall h l, (exists e, new_product h l = Raise e) <-> ~ chained (fun o o' => compat (n_in (at_ h o)) (n_out (at_ h o'))) l.
Proof.
  intros h l. rewrite <- mismatch_iff. unfold new_product. destruct (mismatch h l); [split; [intros _ X; discriminate X|eauto]|]. split; [|intros X; destruct X; auto]. intros (e & E). repeat destruct (propagate _ _ _ _ _). discriminate E.
Qed.

(** A sum of operators that are not shared: its communicators are the known ones of its operands, all communicators below it become consistent, and no other operator changes *)
Theorem C50_sum : forall h ts h' r, Forall (inheap h) ts -> unshared ts -> Forall (consistent h) ts -> new_sum h (map addr ts) = Ok (h', r) ->
  r = length h /\ inheap h' (TSum r ts) /\ consistent h' (TSum r ts) /\ is_first (n_in (at_ h' r)) (map (commin h) ts) /\ is_first (n_out (at_ h' r)) (map (commout h) ts) /\ forall a, a < length h -> ~ In a (flat_map nodes ts) -> at_ h' a = at_ h a.
Proof.
  intros h ts h' r H U C. unfold new_sum. rewrite !map_map. fold (commin h) (commout h). change (fun x => n_in (at_ h (addr x))) with (commin h). change (fun x => n_out (at_ h (addr x))) with (commout h).
  destruct (several (map (commin h) ts)) eqn:E1; [discriminate|]. destruct (several (map (commout h) ts)) eqn:E2; [discriminate|]. set (n := Node _ _ _).
  destruct (new_ready h ts n (TSum (length h) ts) H U C (or_introl (conj eq_refl eq_refl))) as (A1 & A2 & A3 & A4 & A5 & _). destruct (init_works (h ++ [n]) (TSum (length h) ts) A1 A2 A3 I (sum_ready h ts n H U C E1 E2 eq_refl) (S (S (length h)))) as (h1 & h2 & B1 & B2 & B3 & B4 & B5 & B6 & B7 & B8); [rewrite app_length; cbn; lia|].
  cbn [addr] in *. rewrite B1, B2. intros E. injection E as <- <-. rewrite B6, B7, at_new. split; [auto|]. split; [apply (inheap_kind (h ++ [n])); auto|]. split; [auto|]. split; [apply first_known_is|]. split; [apply first_known_is|].
  intros a Ha Hn. rewrite B8; [apply at_app; auto|]. rewrite A5. intros [X|X]; [lia|auto].
Qed.
(** The same for products: the input communicator is the last known one, the output communicator the first *)
Theorem C50_product : forall h ts h' r, Forall (inheap h) ts -> unshared ts -> Forall (consistent h) ts -> new_product h (map addr ts) = Ok (h', r) ->
  r = length h /\ inheap h' (TProduct r ts) /\ consistent h' (TProduct r ts) /\ is_first (n_in (at_ h' r)) (rev (map (commin h) ts)) /\ is_first (n_out (at_ h' r)) (map (commout h) ts) /\ forall a, a < length h -> ~ In a (flat_map nodes ts) -> at_ h' a = at_ h a.
Proof.
  intros h ts h' r H U C. unfold new_product. rewrite !map_map. change (fun x => n_in (at_ h (addr x))) with (commin h). change (fun x => n_out (at_ h (addr x))) with (commout h).
  destruct (mismatch h (map addr ts)) eqn:E1; [discriminate|]. set (n := Node _ _ _).
  destruct (new_ready h ts n (TProduct (length h) ts) H U C (or_intror (conj eq_refl eq_refl))) as (A1 & A2 & A3 & A4 & A5 & _). destruct (product_ready h ts n H U C E1 eq_refl) as (A6 & A7). destruct (init_works (h ++ [n]) (TProduct (length h) ts) A1 A2 A3 A7 A6 (S (S (length h)))) as (h1 & h2 & B1 & B2 & B3 & B4 & B5 & B6 & B7 & B8); [rewrite app_length; cbn; lia|].
  cbn [addr] in *. rewrite B1, B2. intros E. injection E as <- <-. rewrite B6, B7, at_new. split; [auto|]. split; [apply (inheap_kind (h ++ [n])); auto|]. split; [auto|]. split; [apply first_known_is|]. split; [apply first_known_is|].
  intros a Ha Hn. rewrite B8; [apply at_app; auto|]. rewrite A5. intros [X|X]; [lia|auto].
Qed.
(** With shared operands or not, the operators without operands are not changed by the construction of others, and a known communicator does not become unknown *)
Theorem C50_unchanged : forall h l h' r, new_sum h l = Ok (h', r) \/ new_product h l = Ok (h', r) ->
  forall a, a < length h -> (n_kind (at_ h a) = Leaf \/ n_kind (at_ h a) = Getter -> at_ h' a = at_ h a) /\ forall d, get d (at_ h a) <> None -> get d (at_ h' a) <> None.
Proof.
  intros h l h' r E. enough (K : keeps h h') by (intros a Ha; apply K, Ha). destruct E as [E|E]; [unfold new_sum in E|unfold new_product in E]; repeat match type of E with (if ?b then _ else _) = _ => destruct b; [discriminate E|] end; cbv zeta in E.
  - match type of E with context [h ++ [?n]] => pose proof (init_keeps (h ++ [n]) (length h) (S (S (length h)))) as K; eapply (keeps_trans _ _ _ (keeps_app h n)) end. cbv zeta in K. destruct (propagate _ In_ _ _ _) as (h1 & r1). destruct (propagate _ Out_ _ _ _) as (h2 & r2). injection E as <- <-. exact K.
  - match type of E with context [h ++ [?n]] => pose proof (init_keeps (h ++ [n]) (length h) (S (S (length h)))) as K; eapply (keeps_trans _ _ _ (keeps_app h n)) end. cbv zeta in K. destruct (propagate _ In_ _ _ _) as (h1 & r1). destruct (propagate _ Out_ _ _ _) as (h2 & r2). injection E as <- <-. exact K.
Qed.

(** * Findings *)
(** Two leaves, their sum S, two operators with the communicators 7 and 8 *)
Definition ex1 : heap := [Node Leaf None None; Node Leaf None None; Node (Sum [0; 1]) None None; Node Leaf (Some 7) (Some 7); Node Leaf (Some 8) (Some 8)].
Lemma ex1_built : built ex1.
Proof.
  change ex1 with ((([Node Leaf None None; Node Leaf None None; Node (Sum [0; 1]) None None] ++ [Node Leaf (Some 7) (Some 7)]) ++ [Node Leaf (Some 8) (Some 8)])). apply built_simple; [|auto]. apply built_simple; [|auto].
  apply (built_sum [Node Leaf None None; Node Leaf None None] [0; 1] _ 2); [|repeat constructor|reflexivity]. change [Node Leaf None None; Node Leaf None None] with ([] ++ [Node Leaf None None] ++ [Node Leaf None None]). rewrite app_assoc. repeat (apply built_simple; [|auto]). constructor.
Qed.
(** Using an operator in a product changes it: a sum S multiplied by an operator of communicator X gets X for ever, and S times an operator of communicator Y, possible before, is then a ValueError *)
Theorem C50_shared_refuted : ~ forall h l h' r l' x, built h -> Forall (fun o => o < length h) l' -> new_product h l = Ok (h', r) -> new_product h l' = Ok x -> exists x', new_product h' l' = Ok x'.
Proof.
  intros H. assert (F : Forall (fun o => o < length ex1) [2; 4]) by repeat constructor. destruct (new_product ex1 [2; 3]) as [[h' r]|] eqn:E1; [|discriminate E1]. destruct (new_product ex1 [2; 4]) as [x|] eqn:E2; [|discriminate E2]. destruct (H _ _ _ _ _ _ ex1_built F E1 E2) as (x' & X). vm_compute in E1. injection E1 as <- <-. vm_compute in X. discriminate X.
Qed.
(** S = A + b, then T = A + c where c has the communicator 8, then S times an operator of communicator 7: the communicator of A becomes 7 inside T *)
Definition ex2 : heap := [Node Leaf None None; Node Leaf None None; Node (Sum [0; 1]) (Some 8) (Some 8); Node Leaf (Some 7) (Some 7); Node Leaf (Some 8) (Some 8); Node (Sum [2; 0]) None None; Node (Sum [2; 4]) (Some 8) (Some 8)].
Lemma ex2_built : built ex2.
Proof. apply (built_sum (ex1 ++ [Node (Sum [2; 0]) None None]) [2; 4] _ 6); [|repeat constructor|reflexivity]. apply (built_sum ex1 [2; 0] _ 5); [exact ex1_built|repeat constructor|reflexivity]. Qed.
(** The construction of a product may change silently the communicators inside an unrelated operator, which becomes inconsistent *)
Theorem C50_overwritten_refuted : ~ forall h l h' r t, built h -> new_product h l = Ok (h', r) -> inheap h t -> consistent h t -> consistent h' t.
Proof.
  intros H. destruct (new_product ex2 [5; 3]) as [[h' r]|] eqn:E; [|discriminate E]. specialize (H ex2 [5; 3] h' r (TSum 6 [TSum 2 [TLeaf 0; TLeaf 1]; TLeaf 4]) ex2_built E). vm_compute in E. injection E as <- <-.
  assert (X : consistent ex2 (TSum 6 [TSum 2 [TLeaf 0; TLeaf 1]; TLeaf 4])). { cbn. unfold inherits, commin, commout. cbn. split; [|split; [|split; [exact I|exact I]]]; repeat (apply Forall_cons; [cbn; auto|]); try apply Forall_nil. split; [repeat (apply Forall_cons; [cbn; auto|]); apply Forall_nil|auto]. }
  specialize (H ltac:(cbn; repeat split; lia) X). cbn in H. destruct H as (H & _). inversion H as [|? ? (H1 & _) _]; subst. destruct H1 as [H1|(H1 & _)]; discriminate H1.
Qed.
(** CompositionOperator([P, S, R]) is accepted although P * S * R is refused: only adjacent operands are compared, and S, a sum whose communicators are unknown, does not transmit that of P to R *)
Definition ex3 : heap := [Node Leaf None None; Node Leaf None None; Node (Sum [0; 1]) None None; Node Leaf (Some 7) None; Node Leaf None (Some 8)].
Lemma ex3_built : built ex3.
Proof.
  change ex3 with ((([Node Leaf None None; Node Leaf None None; Node (Sum [0; 1]) None None] ++ [Node Leaf (Some 7) None]) ++ [Node Leaf None (Some 8)])). apply built_simple; [|auto]. apply built_simple; [|auto].
  apply (built_sum [Node Leaf None None; Node Leaf None None] [0; 1] _ 2); [|repeat constructor|reflexivity]. change [Node Leaf None None; Node Leaf None None] with ([] ++ [Node Leaf None None] ++ [Node Leaf None None]). rewrite app_assoc. repeat (apply built_simple; [|auto]). constructor.
Qed.
Theorem C50_grouping_refuted : ~ forall h p q r x, built h -> new_product h [p; q; r] = Ok x -> exists h1 pq y, new_product h [p; q] = Ok (h1, pq) /\ new_product h1 [pq; r] = Ok y.
Proof.
  intros H. destruct (new_product ex3 [3; 2; 4]) as [x|] eqn:E; [|discriminate E]. destruct (H _ _ _ _ _ ex3_built E) as (h1 & pq & y & E1 & E2). vm_compute in E1. injection E1 as <- <-. vm_compute in E2. discriminate E2.
Qed.
(** The communicators obtained by propagation are not validated: an operator that adopts the communicator of its right neighbour may then be incompatible with its left neighbour *)
Definition ex4 : heap := [Node Leaf (Some 8) None; Node Getter None None; Node Leaf (Some 7) (Some 7)].
Lemma ex4_built : built ex4. Proof. change ex4 with ((([] ++ [Node Leaf (Some 8) None]) ++ [Node Getter None None]) ++ [Node Leaf (Some 7) (Some 7)]). repeat (apply built_simple; [|auto]). constructor. Qed.
Theorem C50_acquired_refuted : ~ forall h l h' r l', built h -> new_product h l = Ok (h', r) -> n_kind (at_ h' r) = Product l' -> chained (fun o o' => compat (n_in (at_ h' o)) (n_out (at_ h' o'))) l'.
Proof.
  intros H. destruct (new_product ex4 [0; 1; 2]) as [[h' r]|] eqn:E; [|discriminate E]. specialize (H ex4 [0; 1; 2] h' r [0; 4; 2] ex4_built E). vm_compute in E. injection E as <- <-. specialize (H eq_refl). cbn in H. destruct H as ([X|[X|X]] & _); discriminate X.
Qed.
(** The output communicator of an operator whose input communicator is unknown is not given to the sum applied after it *)
Theorem C50_unknown_refuted : ~ forall h o o' l c h' r, built h -> n_kind (at_ h o) = Sum l -> n_out (at_ h o') = Some c -> new_product h [o; o'] = Ok (h', r) -> n_in (at_ h' o) = Some c.
Proof.
  intros H. destruct (new_product ex3 [2; 4]) as [[h' r]|] eqn:E; [|discriminate E]. specialize (H ex3 2 4 [0; 1] 8 h' r ex3_built eq_refl eq_refl E). vm_compute in E. injection E as <- <-. discriminate H.
Qed.

(** * Examples *)
(** Two different sums of two leaves, and an operator of communicators 7 and 8 *)
Definition ex5 : heap := [Node Leaf None None; Node Leaf None None; Node (Sum [0; 1]) None None; Node (Sum [1; 0]) None None; Node Leaf (Some 7) (Some 8)].
Definition ex5_ops : list tree := [TSum 2 [TLeaf 0; TLeaf 1]; TLeaf 4; TSum 3 [TLeaf 1; TLeaf 0]].
Example C50_operands : Forall (inheap ex5) ex5_ops /\ unshared ex5_ops /\ Forall (consistent ex5) ex5_ops.
Proof. unfold ex5_ops, unshared. split; [repeat constructor; cbn; lia|]. split; [cbn; repeat constructor; cbn; intuition lia|]. repeat constructor; cbn; unfold inherits; auto. Qed.
(** The first sum gets the output communicator of the operator, the other one its input communicator *)
Example C50_result : exists h' r, new_product ex5 (map addr ex5_ops) = Ok (h', r) /\ n_in (at_ h' 2) = Some 8 /\ n_out (at_ h' 3) = Some 7 /\ n_in (at_ h' r) = Some 7 /\ n_out (at_ h' r) = Some 8.
Proof. do 2 eexists. split; [reflexivity|]. repeat split. Qed.
Example C50_refused : new_product ex1 [3; 4] = Raise ValueError /\ new_sum ex1 [0; 3; 4] = Raise ValueError. Proof. split; reflexivity. Qed.

Print Assumptions C50_sum_refused.
Print Assumptions C50_product_refused.
Print Assumptions C50_sum.
Print Assumptions C50_product.
Print Assumptions C50_unchanged.
Print Assumptions C50_shared_refuted.
Print Assumptions C50_overwritten_refuted.
Print Assumptions C50_grouping_refuted.
Print Assumptions C50_acquired_refuted.
Print Assumptions C50_unknown_refuted.
