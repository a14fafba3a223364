(** Proofs about the communicators *)
From Coq Require Import Permutation.
From Verif Require Import Base CommsModel CommsSpec.

Lemma NoDup_app_split {A} (l1 l2 : list A) : NoDup (l1 ++ l2) -> NoDup l1 /\ NoDup l2 /\ forall a, In a l1 -> In a l2 -> False.
Proof.
  induction l1 as [|x l1 IH]; intros H; [split; [constructor|]; split; [exact H|intros a []]|]. cbn [app] in H. inversion H as [|? ? H1 H2]; subst. destruct (IH H2) as (A1 & A2 & A3). split; [constructor; [intros X; apply H1, in_or_app; auto|auto]|].
  split; [auto|]. intros a [<-|Ha] Hb; [apply H1, in_or_app; auto|eauto].
Qed.
(** * Memory *)
Lemma at_upd h : forall r a f, at_ (upd h r f) a = if (a =? r) && (r <? length h) then f (at_ h a) else at_ h a.
Proof. induction h as [|n h IH]; intros [|r] [|a] f; try reflexivity. - cbn [upd length]. rewrite (andb_comm). reflexivity. - unfold at_ in *. cbn [upd nth length]. rewrite IH. reflexivity. Qed.
Lemma upd_length h : forall r f, length (upd h r f) = length h.
Proof. induction h as [|n h IH]; intros [|r] f; cbn [upd length]; auto. Qed.
Lemma at_upd_eq h r f : r < length h -> at_ (upd h r f) r = f (at_ h r).
Proof. intros H. rewrite at_upd, Nat.eqb_refl. destruct (Nat.ltb_spec r (length h)); [reflexivity|lia]. Qed.
Lemma at_upd_ne h r a f : a <> r -> at_ (upd h r f) a = at_ h a.
Proof. intros H. rewrite at_upd. destruct (Nat.eqb_spec a r); [contradiction|reflexivity]. Qed.
Lemma upd_id h : forall r f, f (at_ h r) = at_ h r -> upd h r f = h.
Proof. induction h as [|n h IH]; intros [|r] f E; try reflexivity; cbn [upd]; f_equal; [exact E|]. apply IH. exact E. Qed.
Lemma replace_id l : forall i o, nth_error l i = Some o -> replace_nth l i o = l.
Proof. induction l as [|x l IH]; intros [|i] o E; try reflexivity; cbn in E |- *; [congruence|f_equal; auto]. Qed.
Definition has_operands (n : node) (L : list ref) : Prop := n_kind n = Sum L \/ n_kind n = Product L.
Lemma set_same h r i o L : has_operands (at_ h r) L -> nth_error L i = Some o -> upd h r (set_operand i o) = h.
Proof. intros H E. apply upd_id. unfold set_operand. destruct H as [H|H]; rewrite H, (replace_id _ _ _ E); destruct (at_ h r); cbn in *; congruence. Qed.
Lemma get_put d c n : get d (put d c n) = c. Proof. destruct d; reflexivity. Qed.
Lemma get_put_opp d c n : get (opp d) (put d c n) = get (opp d) n. Proof. destruct d; reflexivity. Qed.
Lemma kind_put d c n : n_kind (put d c n) = n_kind n. Proof. destruct d; reflexivity. Qed.

(** * Trees *)
Fixpoint depth (t : tree) : nat := match t with TLeaf _ => 1 | TSum _ l | TProduct _ l => S (list_max (map depth l)) end.
Definition operands (t : tree) : list tree := match t with TLeaf _ => [] | TSum _ l | TProduct _ l => l end.
Lemma all_Forall {A} (P : A -> Prop) l : (fix all l := match l with [] => True | t :: l => P t /\ all l end) l <-> Forall P l.
Proof. induction l as [|x l IH]; [split; auto|]. split; [intros (H & H'); constructor; [auto|apply IH; auto]|intros H; inversion H; subst; split; [auto|apply IH; auto]]. Qed.
Lemma tree_ind' (P : tree -> Prop) : (forall a, P (TLeaf a)) -> (forall a l, Forall P l -> P (TSum a l)) -> (forall a l, Forall P l -> P (TProduct a l)) -> forall t, P t.
Proof.
  intros H1 H2 H3. fix IH 1. intros [a|a l|a l]; [apply H1|apply H2|apply H3]; induction l; constructor; auto.
Qed.
Lemma inheap_eq h t : inheap h t <-> addr t < length h /\ n_kind (at_ h (addr t)) = match t with TLeaf _ => Leaf | TSum _ l => Sum (map addr l) | TProduct _ l => Product (map addr l) end /\ Forall (inheap h) (operands t).
Proof. destruct t as [a|a l|a l]; cbn [inheap addr operands]; [intuition constructor|rewrite all_Forall; intuition..]. Qed.
(** The addresses of all the operators *)
Fixpoint addrs (t : tree) : list ref := match t with TLeaf a => [a] | TSum a l | TProduct a l => a :: flat_map addrs l end.
Lemma addr_addrs t : In (addr t) (addrs t). Proof. destruct t; cbn; auto. Qed.
Lemma nodes_kind h t : inheap h t -> forall a, In a (nodes t) -> n_kind (at_ h a) <> Leaf /\ a < length h.
Proof.
  induction t as [b|b l IH|b l IH] using tree_ind'; intros H a Ha; [destruct Ha|..]; apply inheap_eq in H; cbn [addr operands] in H; destruct H as (H1 & H2 & H3); (destruct Ha as [<-|Ha]; [split; [congruence|auto]|]); apply in_flat_map in Ha; destruct Ha as (t & Ht & Ha); rewrite Forall_forall in IH, H3; apply (IH t); auto.
Qed.
Lemma addrs_nodes h t : inheap h t -> forall a, In a (addrs t) -> In a (nodes t) \/ n_kind (at_ h a) = Leaf.
Proof.
  induction t as [b|b l IH|b l IH] using tree_ind'; intros H a Ha; apply inheap_eq in H; cbn [addr operands] in H; destruct H as (H1 & H2 & H3); [destruct Ha as [<-|[]]; auto|..]; (destruct Ha as [<-|Ha]; [left; left; auto|]); apply in_flat_map in Ha; destruct Ha as (t & Ht & Ha); rewrite Forall_forall in IH, H3; (destruct (IH t Ht (H3 t Ht) a Ha) as [N|N]; [left; right; apply in_flat_map; eauto|auto]).
Qed.
Lemma nodes_addrs t : incl (nodes t) (addrs t).
Proof. induction t as [b|b l IH|b l IH] using tree_ind'; intros a Ha; [destruct Ha|..]; (destruct Ha as [<-|Ha]; [left; auto|]); right; apply in_flat_map in Ha; destruct Ha as (t & Ht & Ha); apply in_flat_map; exists t; rewrite Forall_forall in IH; split; auto; apply IH; auto. Qed.

(** What the consistency of an operator says of its operands *)
Definition order_t (d : dir) (l : list tree) : list tree := match d with In_ => rev l | Out_ => l end.
Definition cget (d : dir) (h : heap) (t : tree) : option comm := get d (at_ h (addr t)).
Definition top (h : heap) (d : dir) (t : tree) : Prop :=
  match t with
  | TLeaf _ => True
  | TSum a l => Forall (fun s => inherits s (cget d h s) (get d (at_ h a))) l
  | TProduct a l => match order_t d l with s :: _ => inherits s (cget d h s) (get d (at_ h a)) | [] => True end
  end.
Definition link (d : dir) (h : heap) (t t' : tree) : Prop := compat (cget (opp d) h t) (cget d h t').
Definition linked (h : heap) (t : tree) : Prop := match t with TProduct _ l => chained (link Out_ h) l | _ => True end.
Lemma consistent_eq h t : consistent h t <-> (forall d, top h d t) /\ linked h t /\ Forall (consistent h) (operands t).
Proof.
  destruct t as [a|a l|a l]; cbn [consistent operands top linked].
  - intuition.
  - rewrite all_Forall. split.
    + intros (H & H'). split; [|auto]. intros d. eapply Forall_impl; [|exact H]. intros t (H1 & H2). destruct d; auto.
    + intros (H & _ & H'). split; [|auto]. apply Forall_forall. intros t Ht. split; [exact (proj1 (Forall_forall _ _) (H In_) t Ht)|exact (proj1 (Forall_forall _ _) (H Out_) t Ht)].
  - rewrite all_Forall. change (chained (fun t t' => compat (commin h t) (commout h t')) l) with (chained (link Out_ h) l). split.
    + intros (H1 & H2 & H3 & H4). split; [|auto]. intros [|]; auto.
    + intros (H & H1 & H4). split; [auto|]. split; [exact (H Out_)|]. split; [exact (H In_)|auto].
Qed.
(** Before the propagation: an operand whose communicator is not yet known is allowed *)
Definition weak_top (h : heap) (d : dir) (t : tree) : Prop :=
  match t with
  | TLeaf _ => True
  | TSum a l => Forall (fun s => cget d h s = None \/ cget d h s = get d (at_ h a)) l
  | TProduct a l => match order_t d l with s :: _ => cget d h s = None \/ cget d h s = get d (at_ h a) | [] => True end
  end.
Lemma top_weak h d t : top h d t -> weak_top h d t.
Proof. destruct t as [a|a l|a l]; cbn; auto; unfold inherits; [intros H; eapply Forall_impl; [|exact H]; cbn; intuition|destruct (order_t d l); intuition]. Qed.

Lemma chained_app {A} (R : A -> A -> Prop) l x y l' : chained R (l ++ [x]) -> R x y -> chained R (y :: l') -> chained R (l ++ x :: y :: l').
Proof. induction l as [|z l IH]; intros H1 H2 H3; [cbn; auto|]. destruct l as [|w l]; cbn [app chained] in *; intuition. Qed.
Lemma chained_rev {A} (R : A -> A -> Prop) l : chained R l -> chained (fun x y => R y x) (rev l).
Proof.
  induction l as [|x l IH]; [auto|]. intros H. cbn [rev]. destruct l as [|y l]; [cbn; auto|]. destruct H as (H & H'). specialize (IH H'). cbn [rev] in *. rewrite <- app_assoc. cbn [app]. apply chained_app; cbn; auto.
Qed.
Lemma chained_impl {A} (R R' : A -> A -> Prop) l : (forall x y, R x y -> R' x y) -> chained R l -> chained R' l.
Proof. intros HR. induction l as [|x [|y l] IH]; auto. intros (H & H'). split; auto. Qed.
Lemma compat_sym x y : compat x y -> compat y x. Proof. unfold compat. intuition congruence. Qed.
Lemma linked_order h d l : chained (link Out_ h) l <-> chained (link d h) (order_t d l).
Proof.
  destruct d; cbn [order_t]; [|tauto]. split; intros H.
  - apply chained_rev in H. eapply chained_impl; [|exact H]. intros x y. apply compat_sym.
  - apply chained_rev in H. rewrite rev_involutive in H. eapply chained_impl; [|exact H]. intros x y. apply compat_sym.
Qed.

(** Parts of the memory that are not changed *)
Definition same_on (h h' : heap) (l : list ref) : Prop := forall a, In a l -> at_ h' a = at_ h a.
Lemma same_on_incl h h' l l' : incl l l' -> same_on h h' l' -> same_on h h' l. Proof. intros I H a Ha. apply H, I, Ha. Qed.
Lemma inheap_same h h' t : length h' = length h -> same_on h h' (addrs t) -> inheap h t -> inheap h' t.
Proof.
  intros HL. induction t as [b|b l IH|b l IH] using tree_ind'; intros S H; apply inheap_eq in H; apply inheap_eq; cbn [addr operands] in *; destruct H as (H1 & H2 & H3); rewrite (S b) by (left; auto); rewrite HL; (split; [auto|]); (split; [auto|]); auto;
    apply Forall_forall; intros t Ht; rewrite Forall_forall in IH, H3; apply IH; auto; intros a Ha; apply S; right; apply in_flat_map; eauto.
Qed.
Lemma inheap_kind h h' t : length h' = length h -> (forall a, n_kind (at_ h' a) = n_kind (at_ h a)) -> inheap h t -> inheap h' t.
Proof.
  intros HL K. induction t as [b|b l IH|b l IH] using tree_ind'; intros H; apply inheap_eq in H; apply inheap_eq; cbn [addr operands] in *; destruct H as (H1 & H2 & H3); rewrite K, HL; (split; [auto|]); (split; [auto|]); auto;
    apply Forall_forall; intros t Ht; rewrite Forall_forall in IH, H3; apply IH; auto.
Qed.
Lemma addrs_operand t s : In s (operands t) -> incl (addrs s) (addrs t).
Proof. intros H a Ha. destruct t; cbn in *; [destruct H|right; apply in_flat_map; eauto..]. Qed.
Lemma addr_operand t s : In s (operands t) -> In (addr s) (addrs t).
Proof. intros H. apply (addrs_operand t s H), addr_addrs. Qed.
Lemma chained_ext {A} (R R' : A -> A -> Prop) l : (forall x y, In x l -> In y l -> R x y -> R' x y) -> chained R l -> chained R' l.
Proof. induction l as [|x [|y l] IH]; auto. intros HR (H & H'). split; [apply HR; cbn; auto|]. apply IH; auto. intros; apply HR; cbn in *; auto. Qed.
Lemma top_same h h' d t : same_on h h' (addrs t) -> top h d t -> top h' d t.
Proof.
  intros S. assert (Sa : at_ h' (addr t) = at_ h (addr t)) by (apply S, addr_addrs). assert (So : forall s, In s (operands t) -> cget d h' s = cget d h s) by (intros s Hs; unfold cget; rewrite (S (addr s)); auto using addr_operand).
  destruct t as [a|a l|a l]; cbn [top addr operands] in *; auto; rewrite Sa.
  - intros H. apply Forall_forall. intros s Hs. rewrite So by auto. exact (proj1 (Forall_forall _ _) H s Hs).
  - destruct (order_t d l) as [|s l'] eqn:E; auto. rewrite So; auto. destruct d; cbn [order_t] in E; [apply in_rev|]; rewrite E; left; auto.
Qed.
Lemma linked_same h h' t : same_on h h' (addrs t) -> linked h t -> linked h' t.
Proof.
  intros S. destruct t as [a|a l|a l]; cbn [linked]; auto. apply chained_ext. intros x y Hx Hy. unfold link, cget. rewrite !(S (addr _)) by (apply (addr_operand (TProduct a l)); auto). auto.
Qed.
Lemma consistent_same h h' t : same_on h h' (addrs t) -> consistent h t -> consistent h' t.
Proof.
  induction t as [b|b l IH|b l IH] using tree_ind'; intros S H; apply consistent_eq in H; apply consistent_eq; destruct H as (H1 & H2 & H3); (split; [intros d; eapply top_same; eauto|]); (split; [eapply linked_same; eauto|]); cbn [operands] in *; auto;
    apply Forall_forall; intros t Ht; rewrite Forall_forall in IH, H3; apply IH; auto; intros a Ha; apply S; right; apply in_flat_map; eauto.
Qed.

(** * The propagation *)
(** What one propagation does to the memory *)
Record effect (d : dir) (t : list ref) (h h' : heap) : Prop := Effect {
  e_length : length h' = length h;
  e_kind : forall a, n_kind (at_ h' a) = n_kind (at_ h a);
  e_opp : forall a, get (opp d) (at_ h' a) = get (opp d) (at_ h a);
  e_frame : forall a, ~ In a t -> at_ h' a = at_ h a }.
Lemma effect_refl d t h : effect d t h h. Proof. constructor; auto. Qed.
Lemma effect_trans d t t' h h1 h2 : effect d t h h1 -> effect d t' h1 h2 -> effect d (t ++ t') h h2.
Proof. intros [A1 A2 A3 A4] [B1 B2 B3 B4]. constructor; [congruence|intros; congruence|intros; congruence|]. intros a Ha. rewrite B4, A4; auto; intros X; apply Ha, in_or_app; auto. Qed.
Lemma effect_incl d t t' h h' : incl t t' -> effect d t h h' -> effect d t' h h'.
Proof. intros I [A1 A2 A3 A4]. constructor; auto. Qed.
Lemma effect_same_on d t h h' l : effect d t h h' -> (forall a, In a l -> ~ In a t) -> same_on h h' l.
Proof. intros E D a Ha. apply (e_frame _ _ _ _ E), D, Ha. Qed.
(** An operand not involved is not changed *)
Lemma disjoint_addrs h t l : inheap h t -> (forall a, In a l -> n_kind (at_ h a) <> Leaf) -> (forall a, In a (nodes t) -> ~ In a l) -> forall a, In a (addrs t) -> ~ In a l.
Proof. intros H K D a Ha X. destruct (addrs_nodes h t H a Ha) as [N|N]; [exact (D a N X)|exact (K a X N)]. Qed.

Definition ready (h : heap) (d : dir) (c : option comm) (t : tree) : Prop :=
  inheap h t /\ NoDup (nodes t) /\ Forall (consistent h) (operands t) /\ linked h t /\ (forall d, weak_top h d t) /\ (composite t = true -> cget d h t = None \/ cget d h t = c).
Definition done (h h' : heap) (d : dir) (c : option comm) (t : tree) : Prop :=
  effect d (nodes t) h h' /\ Forall (consistent h') (operands t) /\ linked h' t /\ top h' d t /\ (top h (opp d) t -> top h' (opp d) t) /\
  cget d h' t = (if composite t then match c with None => cget d h t | _ => c end else cget d h t).
Definition works (fuel : nat) (t : tree) : Prop := forall h d c, ready h d c t -> exists h', propagate fuel d h (addr t) c = (h', addr t) /\ done h h' d c t.

Lemma top_opp h h' d l t : effect d l h h' -> top h (opp d) t -> top h' (opp d) t.
Proof.
  intros E. assert (G : forall a, get (opp d) (at_ h' a) = get (opp d) (at_ h a)) by (intros; apply (e_opp _ _ _ _ E)). destruct t as [a|a k|a k]; cbn [top]; auto; rewrite G.
  - intros H. eapply Forall_impl; [|exact H]. intros s. unfold cget. cbv beta. rewrite G. auto.
  - destruct (order_t (opp d) k); auto. unfold cget. rewrite G. auto.
Qed.
Lemma weak_opp h h' d l t : effect d l h h' -> weak_top h (opp d) t -> weak_top h' (opp d) t.
Proof.
  intros E. assert (G : forall a, get (opp d) (at_ h' a) = get (opp d) (at_ h a)) by (intros; apply (e_opp _ _ _ _ E)). destruct t as [a|a k|a k]; cbn [weak_top]; auto; rewrite G.
  - intros H. eapply Forall_impl; [|exact H]. intros s. unfold cget. cbv beta. rewrite G. auto.
  - destruct (order_t (opp d) k); auto. unfold cget. rewrite G. auto.
Qed.
Lemma consistent_ready h d c t : inheap h t -> NoDup (nodes t) -> consistent h t -> (cget d h t = None \/ cget d h t = c) -> ready h d c t.
Proof. intros H1 H2 H3 H4. apply consistent_eq in H3. destruct H3 as (A & B & C). split; [auto|]. split; [auto|]. split; [auto|]. split; [auto|]. split; [intros d'; apply top_weak; auto|auto]. Qed.
Lemma done_consistent h h' d c t : consistent h t -> done h h' d c t -> consistent h' t.
Proof. intros H (E & A & B & C & D & _). apply consistent_eq in H. apply consistent_eq. split; [|auto]. intros d'. destruct d, d'; auto; apply D, H. Qed.

(** The loop of the sums *)
Lemma sum_loop_works fuel r d c L : c <> None -> forall ts h i, Forall (works fuel) ts -> Forall (inheap h) ts -> NoDup (flat_map nodes ts) -> ~ In r (flat_map nodes ts) -> Forall (consistent h) ts -> Forall (fun s => cget d h s = None \/ cget d h s = c) ts ->
  has_operands (at_ h r) L -> (forall k s, nth_error ts k = Some s -> nth_error L (i + k) = Some (addr s)) ->
  exists h', sum_loop (propagate fuel d) r c i (map addr ts) h = h' /\ effect d (flat_map nodes ts) h h' /\ Forall (consistent h') ts /\ Forall (fun s => cget d h' s = if composite s then c else cget d h s) ts.
Proof.
  intros Hc. induction ts as [|t ts IH]; intros h i W H N R C G O I; [exists h; split; [reflexivity|]; split; [apply effect_refl|auto]|]. cbn [map sum_loop flat_map] in *.
  inversion W as [|? ? W1 W2]; subst. inversion H as [|? ? H1 H2]; subst. inversion C as [|? ? C1 C2]; subst. inversion G as [|? ? G1 G2]; subst. apply NoDup_app_split in N. destruct N as (N1 & N2 & N3).
  destruct (W1 h d c) as (h1 & E1 & D1). { apply consistent_ready; auto. } rewrite E1. assert (C1' := done_consistent _ _ _ _ _ C1 D1). destruct D1 as (F1 & _ & _ & _ & _ & V1).
  assert (K1 : has_operands (at_ h1 r) L) by (unfold has_operands; rewrite (e_kind _ _ _ _ F1); exact O). rewrite (set_same h1 r i (addr t) L K1) by (specialize (I 0 t eq_refl); rewrite Nat.add_0_r in I; exact I).
  assert (S1 : forall s, In s ts -> same_on h h1 (addrs s)).
  { intros s Hs. apply (effect_same_on _ _ _ _ _ F1). rewrite Forall_forall in H2. apply (disjoint_addrs h); [auto|intros a Ha; apply (nodes_kind h t); auto|]. intros a Ha X. apply (N3 a); auto. apply in_flat_map. eauto. }
  destruct (IH h1 (S i)) as (h2 & E2 & F2 & C2' & V2); auto.
  - apply Forall_forall. intros s Hs. rewrite Forall_forall in H2. apply (inheap_same h); [apply (e_length _ _ _ _ F1)|apply S1|apply H2]; auto.
  - intros X. apply R, in_or_app. auto.
  - apply Forall_forall. intros s Hs. rewrite Forall_forall in C2. apply (consistent_same h); [apply S1|apply C2]; auto.
  - apply Forall_forall. intros s Hs. rewrite Forall_forall in G2. unfold cget. rewrite (S1 s Hs (addr s) (addr_addrs s)). apply G2, Hs.
  - intros k s Hk. rewrite Nat.add_succ_comm. apply I. exact Hk.
  - exists h2. split; [exact E2|]. assert (S2 : same_on h1 h2 (addrs t)).
    { apply (effect_same_on _ _ _ _ _ F2). apply (disjoint_addrs h); [auto|intros a Ha; apply in_flat_map in Ha; destruct Ha as (s & Hs & Ha); rewrite Forall_forall in H2; apply (nodes_kind h s); auto|]. intros a Ha X. apply (N3 a); auto. }
    split; [apply (effect_trans _ _ _ _ h1); auto|]. split; [constructor; [apply (consistent_same h1); auto|exact C2']|]. constructor.
    + unfold cget. rewrite (S2 (addr t) (addr_addrs t)). unfold cget in V1. rewrite V1. destruct c; [reflexivity|contradiction].
    + apply Forall_forall. intros s Hs. rewrite Forall_forall in V2. rewrite (V2 s Hs). destruct (composite s); [reflexivity|]. unfold cget. rewrite (S1 s Hs (addr s) (addr_addrs s)). reflexivity.
Qed.

(** The loop of the products, for the operands in the order of the loop; e is the communicator of the previous operand *)
Fixpoint linked_from (d : dir) (h : heap) (e : option comm) (l : list tree) : Prop :=
  match l with [] => True | t :: l => compat e (cget d h t) /\ linked_from d h (cget (opp d) h t) l end.
Lemma linked_from_chained d h t l : linked_from d h (cget (opp d) h t) l <-> chained (link d h) (t :: l).
Proof. revert t. induction l as [|s l IH]; intros t; cbn [linked_from chained]; [tauto|]. rewrite IH. reflexivity. Qed.
Lemma linked_from_none d h l : chained (link d h) l -> linked_from d h None l.
Proof. destruct l as [|t l]; [auto|]. intros H. split; [left; auto|]. apply linked_from_chained. exact H. Qed.
Lemma linked_from_same d h h' e l : (forall t, In t l -> at_ h' (addr t) = at_ h (addr t)) -> linked_from d h e l -> linked_from d h' e l.
Proof. revert e. induction l as [|t l IH]; intros e S; [auto|]. unfold linked_from, cget. cbn [linked_from]. fold linked_from. rewrite (S t) by (left; auto). intros (H1 & H2). split; auto. apply IH; auto. intros; apply S; right; auto. Qed.

Lemma product_loop_works fuel r d L : forall ts h e c ps, Forall (works fuel) ts -> Forall (inheap h) ts -> NoDup (flat_map nodes ts) -> ~ In r (flat_map nodes ts) -> Forall (consistent h) ts -> linked_from d h e ts -> (e = None \/ e = c) ->
  has_operands (at_ h r) L -> Forall2 (fun p s => nth_error L (fst p) = Some (addr s) /\ snd p = addr s) ps ts ->
  exists h', product_loop (propagate fuel d) r d c ps h = h' /\ effect d (flat_map nodes ts) h h' /\ Forall (consistent h') ts /\ linked_from d h' e ts /\
    match ts with s :: _ => cget d h' s = match cget d h s with None => if composite s then c else None | x => x end | [] => True end.
Proof.
  induction ts as [|t ts IH]; intros h e c ps W H N R C Lk Ec O I; inversion I as [|[i op] ? ps' ? (I1 & I2) I3]; subst; [exists h; split; [reflexivity|]; split; [apply effect_refl|auto]|]. cbn [product_loop flat_map fst snd] in *. subst op.
  inversion W as [|? ? W1 W2]; subst. inversion H as [|? ? H1 H2]; subst. inversion C as [|? ? C1 C2]; subst. apply NoDup_app_split in N. destruct N as (N1 & N2 & N3). destruct Lk as (L1 & L2).
  assert (Dts : forall h2, effect d (flat_map nodes ts) h h2 -> same_on h h2 (addrs t)).
  { intros h2 F2. apply (effect_same_on _ _ _ _ _ F2). apply (disjoint_addrs h); [auto|intros a Ha; apply in_flat_map in Ha; destruct Ha as (s & Hs & Ha); rewrite Forall_forall in H2; apply (nodes_kind h s); auto|]. intros a Ha X. apply (N3 a); auto. }
  fold (cget d h t). destruct (cget d h t) as [x|] eqn:Ex.
  - destruct (IH h (cget (opp d) h t) (cget (opp d) h t) ps') as (h2 & E2 & F2 & C2' & V2 & V3); auto. { intros X; apply R, in_or_app; auto. }
    exists h2. split; [exact E2|]. assert (S2 := Dts h2 F2). split; [apply (effect_incl _ (flat_map nodes ts)); [apply incl_appr, incl_refl|auto]|]. split; [constructor; [apply (consistent_same h); auto|auto]|].
    assert (A2 : at_ h2 (addr t) = at_ h (addr t)) by apply (S2 _ (addr_addrs t)). cbn [linked_from]. unfold cget in *. rewrite A2. split; [split; [rewrite Ex; exact L1|exact V2]|exact Ex].
  - destruct (W1 h d c) as (h1 & E1 & D1). { apply consistent_ready; auto. } rewrite E1. assert (C1' := done_consistent _ _ _ _ _ C1 D1). destruct D1 as (F1 & _ & _ & _ & _ & V1).
    assert (K1 : has_operands (at_ h1 r) L) by (unfold has_operands; rewrite (e_kind _ _ _ _ F1); exact O). rewrite (set_same h1 r i (addr t) L K1) by auto.
    assert (S1 : forall s, In s ts -> same_on h h1 (addrs s)).
    { intros s Hs. apply (effect_same_on _ _ _ _ _ F1). rewrite Forall_forall in H2. apply (disjoint_addrs h); [auto|intros a Ha; apply (nodes_kind h t); auto|]. intros a Ha X. apply (N3 a); auto. apply in_flat_map. eauto. }
    assert (O1 : cget (opp d) h1 t = cget (opp d) h t) by apply (e_opp _ _ _ _ F1). fold (cget (opp d) h1 t).
    destruct (IH h1 (cget (opp d) h1 t) (match cget (opp d) h1 t with Some c' => Some c' | None => c end) ps') as (h2 & E2 & F2 & C2' & V2 & V3); auto.
    + apply Forall_forall. intros s Hs. rewrite Forall_forall in H2. apply (inheap_same h); [apply (e_length _ _ _ _ F1)|apply S1|apply H2]; auto.
    + intros X. apply R, in_or_app. auto.
    + apply Forall_forall. intros s Hs. rewrite Forall_forall in C2. apply (consistent_same h); [apply S1|apply C2]; auto.
    + rewrite O1. apply (linked_from_same d h); auto. intros s Hs. apply (S1 s Hs), addr_addrs.
    + destruct (cget (opp d) h1 t); auto.
    + exists h2. split; [exact E2|]. assert (S2 : same_on h1 h2 (addrs t)).
      { apply (effect_same_on _ _ _ _ _ F2). apply (disjoint_addrs h); [auto|intros a Ha; apply in_flat_map in Ha; destruct Ha as (s & Hs & Ha); rewrite Forall_forall in H2; apply (nodes_kind h s); auto|]. intros a Ha X. apply (N3 a); auto. }
      split; [apply (effect_trans _ _ _ _ h1); auto|]. split; [constructor; [apply (consistent_same h1); auto|exact C2']|]. assert (A2 : at_ h2 (addr t) = at_ h1 (addr t)) by apply (S2 _ (addr_addrs t)).
      assert (X2 : cget d h2 t = if composite t then c else None). { unfold cget. rewrite A2. fold (cget d h1 t). rewrite V1, Ex. destruct (composite t), c; reflexivity. }
      cbn [linked_from]. split; [|exact X2]. split; [|unfold cget; rewrite A2; exact V2]. rewrite X2. destruct (composite t); [|right; left; reflexivity]. unfold compat. destruct Ec as [->| ->]; auto.
Qed.

Lemma combine_map {A B} (f : A -> B) i ts : combine (seq i (length (map f ts))) (map f ts) = map (fun p => (fst p, f (snd p))) (combine (seq i (length ts)) ts).
Proof. revert i. induction ts as [|t ts IH]; intros i; [reflexivity|]. cbn [map length seq combine fst snd]. f_equal. apply IH. Qed.
Lemma enumerate_ok ts : Forall2 (fun p s => nth_error (map addr ts) (fst p) = Some (addr s) /\ snd p = addr s) (enumerate (map addr ts)) ts.
Proof.
  unfold enumerate. assert (G : forall us pre, Forall2 (fun p s => nth_error (map addr (pre ++ us)) (fst p) = Some (addr s) /\ snd p = addr s) (combine (seq (length pre) (length (map addr us))) (map addr us)) us); [|exact (G ts [])].
  induction us as [|u us IH]; intros pre; [constructor|]. cbn [map length seq combine]. constructor.
  - cbn [fst snd]. split; [|reflexivity]. rewrite map_app, nth_error_app2 by (rewrite map_length; lia). rewrite map_length, Nat.sub_diag. reflexivity.
  - specialize (IH (pre ++ [u])). rewrite app_length, <- app_assoc in IH. cbn [length app] in IH. rewrite Nat.add_1_r in IH. exact IH.
Qed.
Lemma Forall2_rev {A B} (R : A -> B -> Prop) l l' : Forall2 R l l' -> Forall2 R (rev l) (rev l').
Proof. induction 1; [constructor|]. cbn [rev]. apply Forall2_app; auto. Qed.
Lemma order_ok d ts : Forall2 (fun p s => nth_error (map addr ts) (fst p) = Some (addr s) /\ snd p = addr s) (order d (map addr ts)) (order_t d ts).
Proof. destruct d; cbn [order order_t]; [apply Forall2_rev|]; apply enumerate_ok. Qed.
Lemma order_In d t ts : In t (order_t d ts) <-> In t ts. Proof. destruct d; cbn; [rewrite <- in_rev|]; tauto. Qed.
Lemma order_Forall d (P : tree -> Prop) ts : Forall P (order_t d ts) <-> Forall P ts.
Proof. rewrite !Forall_forall. split; intros H x Hx; apply H; [exact (proj2 (order_In d x ts) Hx)|exact (proj1 (order_In d x ts) Hx)]. Qed.
Lemma order_nodes d ts : Permutation (flat_map nodes (order_t d ts)) (flat_map nodes ts).
Proof. destruct d; cbn [order_t]; [|apply Permutation_refl]. apply Permutation_flat_map, Permutation_sym, Permutation_rev. Qed.
Lemma linked_from_back d h l : linked_from d h None l -> chained (link d h) l.
Proof. destruct l as [|t l]; [cbn; auto|]. intros (_ & H). apply linked_from_chained. exact H. Qed.
Lemma depth_operand t s fuel : In s (operands t) -> depth t <= S fuel -> depth s <= fuel.
Proof.
  intros H D. assert (X : depth s <= list_max (map depth (operands t))). { assert (Y : Forall (fun k => k <= list_max (map depth (operands t))) (map depth (operands t))) by (apply list_max_le; auto). rewrite Forall_forall in Y. apply Y, in_map, H. }
  destruct t; cbn [depth operands] in *; [destruct H|lia..].
Qed.
Lemma put_effect h a d c : effect d [a] h (upd h a (put d c)).
Proof.
  constructor; [apply upd_length|..]; intros b.
  - rewrite at_upd. destruct (_ && _); [apply kind_put|reflexivity].
  - rewrite at_upd. destruct (_ && _); [apply get_put_opp|reflexivity].
  - intros H. apply at_upd_ne. intros ->. apply H. left; auto.
Qed.
(** The operands of a composite a are not changed by the assignment of its communicator *)
Lemma put_same h a d c t ts : inheap h t -> t = TSum a ts \/ t = TProduct a ts -> NoDup (nodes t) -> forall s, In s ts -> same_on h (upd h a (put d c)) (addrs s).
Proof.
  intros H T N s Hs. apply (effect_same_on d [a] h); [apply put_effect|]. assert (Io : In s (operands t)) by (destruct T; subst; auto). assert (Ea : a = addr t) by (destruct T; subst; auto). assert (N' : ~ In a (nodes s)). { intros X. destruct T; subst t; cbn [nodes] in N; inversion N as [|? ? N1 N2]; apply N1, in_flat_map; eauto. }
  pose proof H as H'. apply inheap_eq in H'. destruct H' as (H1 & H2 & H3). rewrite Forall_forall in H3. apply (disjoint_addrs h); auto.
  - intros b [<-|[]]. destruct T as [-> | ->]; cbn [addr] in H2; rewrite H2; discriminate.
  - intros b Hb [<-|[]]. auto.
Qed.
Lemma works_all fuel : forall t, depth t <= fuel -> works fuel t.
Proof.
  induction fuel as [|fuel IH]; intros t Ht; [destruct t; cbn in Ht; lia|]. intros h d c (H & N & C & Lk & Wk & P). assert (Wo : Forall (works fuel) (operands t)) by (apply Forall_forall; intros s Hs; apply IH, (depth_operand t s); auto). pose proof H as H'. apply inheap_eq in H'. destruct H' as (H1 & H2 & H3).
  destruct t as [a|a l|a l]; cbn [addr operands propagate composite] in *; rewrite H2.
  - exists h. split; [reflexivity|]. split; [apply effect_refl|]. cbn. auto 6.
  - specialize (P eq_refl). unfold cget in P. cbn [addr] in P. destruct c as [c0|].
    2: { exists h. split; [reflexivity|]. split; [apply effect_refl|]. split; [auto|]. split; [auto|]. assert (A : get d (at_ h a) = None) by (destruct P; auto). split; [|split; [auto|reflexivity]]. cbn [top]. specialize (Wk d). cbn [weak_top] in Wk. eapply Forall_impl; [|exact Wk]. cbv beta. intros s Hs. left. rewrite A in Hs |- *. destruct Hs; auto. }
    set (c := Some c0) in *. set (h1 := upd h a (put d c)). assert (S1 := put_same h a d c (TSum a l) l H (or_introl eq_refl) N). fold h1 in S1. assert (F1 : effect d [a] h h1) by apply put_effect. assert (A1 : get d (at_ h1 a) = c) by (unfold h1; rewrite at_upd_eq by auto; apply get_put).
    cbn [nodes] in N. inversion N as [|? ? N1 N2]; subst. pose proof (Wk d) as Wd. cbn [weak_top] in Wd. rewrite Forall_forall in Wd.
    destruct (sum_loop_works fuel a d c (map addr l) ltac:(discriminate) l h1 0) as (h2 & E2 & F2 & C2 & V2); auto.
    + apply Forall_forall. intros s Hs. apply (inheap_same h); [apply (e_length _ _ _ _ F1)|apply S1; auto|]. rewrite Forall_forall in H3. auto.
    + apply Forall_forall. intros s Hs. apply (consistent_same h); [apply S1; auto|]. rewrite Forall_forall in C. auto.
    + apply Forall_forall. intros s Hs. unfold cget. rewrite (S1 s Hs _ (addr_addrs s)). destruct (Wd s Hs) as [Q|Q]; unfold cget in Q; [auto|]. rewrite Q. exact P.
    + left. rewrite (e_kind _ _ _ _ F1). exact H2.
    + intros k s Hk. cbn [plus]. apply map_nth_error. exact Hk.
    + rewrite E2. exists h2. split; [reflexivity|]. assert (F : effect d (nodes (TSum a l)) h h2) by (cbn [nodes]; apply (effect_trans d [a] (flat_map nodes l) h h1 h2); auto). assert (A2 : at_ h2 a = at_ h1 a) by (apply (e_frame _ _ _ _ F2); auto).
      split; [exact F|]. split; [exact C2|]. split; [exact I|]. split; [|split; [apply (top_opp h h2 d _ _ F)|unfold cget; cbn [addr]; rewrite A2, A1; reflexivity]]. cbn [top]. rewrite A2, A1. apply Forall_forall. intros s Hs. rewrite Forall_forall in V2. rewrite (V2 s Hs). unfold inherits. destruct (composite s); [auto|].
      unfold cget. rewrite (S1 s Hs _ (addr_addrs s)). destruct (Wd s Hs) as [Q|Q]; unfold cget in Q; rewrite Q; auto. destruct P as [P|P]; rewrite P; auto.
  - specialize (P eq_refl). unfold cget in P. cbn [addr] in P. destruct c as [c0|].
    2: { exists h. split; [reflexivity|]. split; [apply effect_refl|]. split; [auto|]. split; [auto|]. assert (A : get d (at_ h a) = None) by (destruct P; auto). split; [|split; [auto|reflexivity]]. cbn [top]. specialize (Wk d). cbn [weak_top] in Wk. destruct (order_t d l); auto. left. rewrite A in Wk |- *. destruct Wk; auto. }
    set (c := Some c0) in *. set (h1 := upd h a (put d c)). assert (S1 := put_same h a d c (TProduct a l) l H (or_intror eq_refl) N). fold h1 in S1. assert (F1 : effect d [a] h h1) by apply put_effect. assert (A1 : get d (at_ h1 a) = c) by (unfold h1; rewrite at_upd_eq by auto; apply get_put).
    cbn [nodes] in N. inversion N as [|? ? N1 N2]; subst. pose proof (Wk d) as Wd. cbn [weak_top] in Wd.
    destruct (product_loop_works fuel a d (map addr l) (order_t d l) h1 None c (order d (map addr l))) as (h2 & E2 & F2 & C2 & L2 & V2).
    + apply order_Forall. auto.
    + apply order_Forall. apply Forall_forall. intros s Hs. apply (inheap_same h); [apply (e_length _ _ _ _ F1)|apply S1; auto|]. rewrite Forall_forall in H3. auto.
    + apply (Permutation_NoDup (Permutation_sym (order_nodes d l))). exact N2.
    + intros X. apply N1. apply (Permutation_in _ (order_nodes d l)). exact X.
    + apply order_Forall. apply Forall_forall. intros s Hs. apply (consistent_same h); [apply S1; auto|]. rewrite Forall_forall in C. auto.
    + apply linked_from_none. apply linked_order. cbn [linked] in Lk. revert Lk. apply chained_ext. intros x y Hx Hy. unfold link, cget. rewrite !(fun s Hs => S1 s Hs _ (addr_addrs s)) by auto. auto.
    + auto.
    + right. rewrite (e_kind _ _ _ _ F1). exact H2.
    + apply order_ok.
    + rewrite E2. exists h2. split; [reflexivity|]. assert (F : effect d (nodes (TProduct a l)) h h2). { cbn [nodes]. apply (effect_trans d [a] (flat_map nodes l) h h1 h2); auto. apply (effect_incl d (flat_map nodes (order_t d l))); auto. intros b. apply Permutation_in, order_nodes. }
      assert (A2 : at_ h2 a = at_ h1 a) by (apply (e_frame _ _ _ _ F2); intros X; apply N1, (Permutation_in _ (order_nodes d l)); exact X).
      split; [exact F|]. split; [apply (order_Forall d); exact C2|]. split; [cbn [linked]; apply (linked_order h2 d), linked_from_back; exact L2|]. split; [|split; [apply (top_opp h h2 d _ _ F)|unfold cget; cbn [addr]; rewrite A2, A1; reflexivity]].
      cbn [top]. rewrite A2, A1. destruct (order_t d l) as [|s l'] eqn:El; auto. rewrite V2. assert (Hs : In s l) by (apply (order_In d); rewrite El; left; auto). unfold inherits, cget. rewrite (S1 s Hs _ (addr_addrs s)). unfold cget in Wd. destruct Wd as [Q|Q]; rewrite Q; [destruct (composite s); auto|].
      destruct P as [P|P]; rewrite P; [destruct (composite s); auto|auto].
Qed.

(** * The constructors *)
Lemma depth_nodes t : depth t <= S (length (nodes t)).
Proof.
  induction t as [b|b l IH|b l IH] using tree_ind'; cbn [depth nodes length]; [lia|..]; apply le_n_S; apply list_max_le; apply Forall_forall; intros k Hk; apply in_map_iff in Hk; destruct Hk as (t & <- & Ht); rewrite Forall_forall in IH; specialize (IH t Ht);
    apply in_split in Ht; destruct Ht as (l1 & l2 & ->); rewrite flat_map_app; cbn [flat_map]; rewrite !app_length; lia.
Qed.
Lemma depth_bound h t : inheap h t -> NoDup (nodes t) -> depth t <= S (length h).
Proof.
  intros H N. assert (length (nodes t) <= length (seq 0 (length h))). { apply NoDup_incl_length; auto. intros a Ha. apply in_seq. split; [lia|]. apply (nodes_kind h t); auto. } rewrite seq_length in *. pose proof (depth_nodes t). lia.
Qed.
Lemma at_app h n a : a < length h -> at_ (h ++ [n]) a = at_ h a. Proof. intros H. apply app_nth1. auto. Qed.
Lemma at_new h n : at_ (h ++ [n]) (length h) = n. Proof. unfold at_. rewrite app_nth2, Nat.sub_diag; auto. Qed.
Lemma addrs_bound h t : inheap h t -> forall a, In a (addrs t) -> a < length h.
Proof.
  induction t as [b|b l IH|b l IH] using tree_ind'; intros H a Ha; apply inheap_eq in H; cbn [addr operands] in H; destruct H as (H1 & H2 & H3); (destruct Ha as [<-|Ha]; [auto|]); [destruct Ha|..]; apply in_flat_map in Ha; destruct Ha as (t & Ht & Ha); rewrite Forall_forall in IH, H3; apply (IH t); auto.
Qed.
Lemma app_same h n t : inheap h t -> same_on h (h ++ [n]) (addrs t).
Proof. intros H a Ha. apply at_app. apply (addrs_bound h t); auto. Qed.
Lemma inheap_app h n t : inheap h t -> inheap (h ++ [n]) t.
Proof.
  induction t as [b|b l IH|b l IH] using tree_ind'; intros H; apply inheap_eq in H; apply inheap_eq; cbn [addr operands] in *; destruct H as (H1 & H2 & H3); rewrite at_app, app_length by auto; (split; [cbn; lia|]); (split; [auto|]); auto; apply Forall_forall; intros t Ht; rewrite Forall_forall in IH, H3; apply IH; auto.
Qed.
(** The two propagations of __init__ *)
Lemma init_works h t : inheap h t -> NoDup (nodes t) -> Forall (consistent h) (operands t) -> linked h t -> (forall d, weak_top h d t) -> forall fuel, length h < fuel ->
  exists h1 h2, propagate fuel In_ h (addr t) (n_in (at_ h (addr t))) = (h1, addr t) /\ propagate fuel Out_ h1 (addr t) (n_out (at_ h1 (addr t))) = (h2, addr t) /\ consistent h2 t /\ length h2 = length h /\
    (forall a, n_kind (at_ h2 a) = n_kind (at_ h a)) /\ n_in (at_ h2 (addr t)) = n_in (at_ h (addr t)) /\ n_out (at_ h2 (addr t)) = n_out (at_ h (addr t)) /\ forall a, ~ In a (nodes t) -> at_ h2 a = at_ h a.
Proof.
  intros H N C L Wk fuel Hf. assert (D := depth_bound h t H N). assert (W := works_all fuel t ltac:(lia)).
  destruct (W h In_ (n_in (at_ h (addr t)))) as (h1 & E1 & F1 & C1 & L1 & T1 & _ & V1). { split; [auto|]. split; [auto|]. split; [auto|]. split; [auto|]. split; [auto|]. intros _. right. reflexivity. }
  assert (H1 : inheap h1 t) by (apply (inheap_kind h); auto; apply F1).
  destruct (W h1 Out_ (n_out (at_ h1 (addr t)))) as (h2 & E2 & F2 & C2 & L2 & T2 & T2' & V2).
  { split; [auto|]. split; [auto|]. split; [auto|]. split; [auto|]. split; [|intros _; right; reflexivity]. intros [|]; [apply top_weak; auto|]. apply (weak_opp h h1 In_ _ _ F1). apply Wk. }
  exists h1, h2. split; [exact E1|]. split; [exact E2|]. split; [apply consistent_eq; split; [intros [|]; auto|auto]|]. split; [rewrite (e_length _ _ _ _ F2); apply F1|]. split; [intros a; rewrite (e_kind _ _ _ _ F2); apply F1|].
  split; [|split].
  - transitivity (n_in (at_ h1 (addr t))); [exact (e_opp _ _ _ _ F2 (addr t))|]. change (cget In_ h1 t = n_in (at_ h (addr t))). rewrite V1. destruct (composite t), (n_in (at_ h (addr t))) eqn:E; auto.
  - transitivity (n_out (at_ h1 (addr t))); [|exact (e_opp _ _ _ _ F1 (addr t))]. change (cget Out_ h2 t = n_out (at_ h1 (addr t))). rewrite V2. destruct (composite t), (n_out (at_ h1 (addr t))) eqn:E; auto.
  - intros a Ha. rewrite (e_frame _ _ _ _ F2), (e_frame _ _ _ _ F1); auto.
Qed.
(** A new composite in the memory *)
Lemma new_ready h ts n t : Forall (inheap h) ts -> unshared ts -> Forall (consistent h) ts -> (t = TSum (length h) ts /\ n_kind n = Sum (map addr ts) \/ t = TProduct (length h) ts /\ n_kind n = Product (map addr ts)) ->
  inheap (h ++ [n]) t /\ NoDup (nodes t) /\ Forall (consistent (h ++ [n])) (operands t) /\ addr t = length h /\ nodes t = length h :: flat_map nodes ts /\ forall s, In s ts -> at_ (h ++ [n]) (addr s) = at_ h (addr s).
Proof.
  intros H U C T. assert (O : operands t = ts) by (destruct T as [(-> & _)|(-> & _)]; reflexivity). assert (A : addr t = length h) by (destruct T as [(-> & _)|(-> & _)]; reflexivity). assert (M : nodes t = length h :: flat_map nodes ts) by (destruct T as [(-> & _)|(-> & _)]; reflexivity). rewrite Forall_forall in H, C.
  split; [|split; [|split; [|split; [auto|split; [auto|]]]]].
  - apply inheap_eq. rewrite A, O, at_new, app_length. split; [cbn; lia|]. split; [destruct T as [(-> & K)|(-> & K)]; exact K|]. apply Forall_forall. intros s Hs. apply inheap_app. auto.
  - rewrite M. constructor; [|exact U]. intros X. apply in_flat_map in X. destruct X as (s & Hs & X). pose proof (proj2 (nodes_kind h s (H s Hs) _ X)). lia.
  - rewrite O. apply Forall_forall. intros s Hs. apply (consistent_same h); [apply app_same|]; auto.
  - intros s Hs. apply (app_same h n s (H s Hs)), addr_addrs.
Qed.

(** * Validation *)
Lemma In_known c l : In c (known l) <-> In (Some c) l.
Proof. induction l as [|[x|] l IH]; cbn [known In]; [tauto|rewrite IH; split; intros [E|E]; auto; left; congruence|rewrite IH; split; [auto|intros [E|E]; [discriminate E|auto]]]. Qed.
Lemma several_iff l : several l = false <-> agree l.
Proof.
  unfold several, agree. setoid_rewrite <- In_known. set (k := known l). rewrite Nat.ltb_ge. split.
  - intros L c c' Hc Hc'. apply (nodup_In Nat.eq_dec) in Hc, Hc'. destruct (nodup Nat.eq_dec k) as [|x [|y m]]; [destruct Hc| |cbn in L; lia]. destruct Hc as [<-|[]], Hc' as [<-|[]]. reflexivity.
  - intros A. pose proof (NoDup_nodup Nat.eq_dec k) as N. assert (I : forall c, In c (nodup Nat.eq_dec k) -> In c k) by (intros c; apply nodup_In). destruct (nodup Nat.eq_dec k) as [|x [|y m]]; [cbn; lia..|]. exfalso. inversion N as [|? ? N1 N2]; subst. apply N1. left. apply A; apply I; cbn; auto.
Qed.
Lemma mismatch_iff h l : mismatch h l = false <-> chained (fun o o' => compat (n_in (at_ h o)) (n_out (at_ h o'))) l.
Proof.
  induction l as [|x [|y l] IH]; [split; cbn; auto..|]. cbn [mismatch chained]. rewrite orb_false_iff. split.
  - intros (H & H'). split; [|apply IH; exact H']. unfold compat. destruct (n_in (at_ h x)) as [c|], (n_out (at_ h y)) as [c'|]; auto. apply negb_false_iff, Nat.eqb_eq in H. right; right. congruence.
  - intros (H & H'). split; [|apply IH; exact H']. destruct (n_in (at_ h x)) as [c|], (n_out (at_ h y)) as [c'|]; auto. destruct H as [H|[H|H]]; try discriminate H. apply negb_false_iff, Nat.eqb_eq. congruence.
Qed.
Lemma first_known_is l : is_first (first_known l) l.
Proof.
  induction l as [|[c|] l IH]; cbn [first_known]; [left; split; [auto|intros x []]|right; exists c, [], l; split; [auto|split; [auto|intros x []]]|].
  destruct IH as [(E & H)|(c & l1 & l2 & E & -> & H)]; [left; split; [auto|]; intros x [<-|Hx]; auto|right; exists c, (None :: l1), l2]. split; [auto|]. split; [auto|]. intros x [<-|Hx]; auto.
Qed.
Lemma agree_first l x : agree l -> In x l -> x = None \/ x = first_known l.
Proof.
  intros A Hx. destruct x as [c|]; [right|auto]. destruct (first_known_is l) as [(E & H)|(c' & l1 & l2 & E & F & H)]; [discriminate (H _ Hx)|]. rewrite E. f_equal. apply A; [auto|]. rewrite F. apply in_or_app. right. left. auto.
Qed.
Lemma chained_map {A B} (f : A -> B) (R : B -> B -> Prop) l : chained R (map f l) <-> chained (fun x y => R (f x) (f y)) l.
Proof. induction l as [|x [|y l] IH]; [cbn; tauto..|]. cbn [map chained] in *. rewrite IH. tauto. Qed.
Lemma sum_ready h ts n : Forall (inheap h) ts -> unshared ts -> Forall (consistent h) ts -> several (map (commin h) ts) = false -> several (map (commout h) ts) = false ->
  n = Node (Sum (map addr ts)) (first_known (map (commin h) ts)) (first_known (map (commout h) ts)) -> forall d, weak_top (h ++ [n]) d (TSum (length h) ts).
Proof.
  intros H U C A1 A2 En d. apply several_iff in A1, A2. destruct (new_ready h ts n (TSum (length h) ts) H U C) as (_ & _ & _ & _ & _ & S). { left. split; [auto|rewrite En; reflexivity]. }
  cbn [weak_top]. rewrite at_new. apply Forall_forall. intros s Hs. unfold cget. rewrite (S s Hs). assert (Gi : n_in n = first_known (map (commin h) ts)) by (rewrite En; reflexivity). assert (Go : n_out n = first_known (map (commout h) ts)) by (rewrite En; reflexivity). destruct d; cbn [get]; [rewrite Gi|rewrite Go]; apply agree_first; auto; apply (in_map (commin h)) || apply (in_map (commout h)); auto.
Qed.
Lemma product_ready h ts n : Forall (inheap h) ts -> unshared ts -> Forall (consistent h) ts -> mismatch h (map addr ts) = false ->
  n = Node (Product (map addr ts)) (first_known (rev (map (commin h) ts))) (first_known (map (commout h) ts)) -> (forall d, weak_top (h ++ [n]) d (TProduct (length h) ts)) /\ linked (h ++ [n]) (TProduct (length h) ts).
Proof.
  intros H U C A En. apply mismatch_iff in A. apply chained_map in A. destruct (new_ready h ts n (TProduct (length h) ts) H U C) as (_ & _ & _ & _ & _ & S). { right. split; [auto|rewrite En; reflexivity]. }
  split.
  - assert (Gi : n_in n = first_known (rev (map (commin h) ts))) by (rewrite En; reflexivity). assert (Go : n_out n = first_known (map (commout h) ts)) by (rewrite En; reflexivity). clear En. intros d. cbn [weak_top]. rewrite at_new. destruct d; cbn [order_t get]; [rewrite Gi|rewrite Go].
    + rewrite <- map_rev. destruct (rev ts) as [|s l] eqn:E; auto. unfold cget. rewrite S by (apply in_rev; rewrite E; left; auto). cbn [get map first_known]. unfold commin. destruct (n_in (at_ h (addr s))); auto.
    + destruct ts as [|s l]; auto. unfold cget. rewrite S by (left; auto). cbn [get map first_known]. unfold commout. destruct (n_out (at_ h (addr s))); auto.
  - cbn [linked]. revert A. apply chained_ext. intros x y Hx Hy. unfold link, cget. rewrite !S by auto. auto.
Qed.

(** * What no construction changes, with shared operands or not *)
Definition simple (n : node) : Prop := n_kind n = Leaf \/ n_kind n = Getter.
Definition keeps (h h' : heap) : Prop := length h <= length h' /\ forall a, a < length h -> (simple (at_ h a) -> at_ h' a = at_ h a) /\ forall d, get d (at_ h a) <> None -> get d (at_ h' a) <> None.
Lemma keeps_refl h : keeps h h. Proof. split; auto. Qed.
Lemma keeps_trans h1 h2 h3 : keeps h1 h2 -> keeps h2 h3 -> keeps h1 h3.
Proof. intros (L & H) (L' & H'). split; [lia|]. intros a Ha. destruct (H a Ha) as (H1 & H2), (H' a ltac:(lia)) as (H3 & H4). split; [|auto]. intros S. specialize (H1 S). rewrite H3; [exact H1|]. rewrite H1. exact S. Qed.
Lemma keeps_app h n : keeps h (h ++ [n]).
Proof. split; [rewrite app_length; lia|]. intros a Ha. rewrite at_app by auto. auto. Qed.
Lemma keeps_put h r d c : ~ simple (at_ h r) -> c <> None -> keeps h (upd h r (put d c)).
Proof.
  intros S C. split; [rewrite upd_length; lia|]. intros a Ha. rewrite at_upd. destruct (Nat.eqb_spec a r) as [->|]; [|auto]. destruct (_ <? _); cbn [andb]; [|auto]. split; [contradiction|]. intros d'. destruct d, d'; cbn; auto.
Qed.
Lemma keeps_set h r i o : keeps h (upd h r (set_operand i o)).
Proof.
  split; [rewrite upd_length; lia|]. intros a Ha. rewrite at_upd. destruct (_ && _); [|auto]. unfold set_operand, simple. destruct (n_kind (at_ h a)) eqn:E; split; auto; try (intros [X|X]; discriminate X); intros d; destruct d; auto.
Qed.
Lemma sum_loop_keeps p r c : (forall h o c, keeps h (fst (p h o c))) -> forall l i h, keeps h (sum_loop p r c i l h).
Proof. intros P. induction l as [|o l IH]; intros i h; [apply keeps_refl|]. cbn [sum_loop]. specialize (P h o c). destruct (p h o c) as (h1 & o'). eapply keeps_trans; [exact P|]. eapply keeps_trans; [apply keeps_set|apply IH]. Qed.
Lemma product_loop_keeps p r d : (forall h o c, keeps h (fst (p h o c))) -> forall l c h, keeps h (product_loop p r d c l h).
Proof. intros P. induction l as [|[i o] l IH]; intros c h; [apply keeps_refl|]. cbn [product_loop]. destruct (get d (at_ h o)); [apply IH|]. specialize (P h o c). destruct (p h o c) as (h1 & o'). eapply keeps_trans; [exact P|]. eapply keeps_trans; [apply keeps_set|apply IH]. Qed.
Lemma propagate_keeps fuel d : forall h r c, keeps h (fst (propagate fuel d h r c)).
Proof.
  induction fuel as [|fuel IH]; intros h r c; [apply keeps_refl|]. cbn [propagate]. destruct (n_kind (at_ h r)) as [| |l|l] eqn:E; [apply keeps_refl|destruct d; [apply keeps_app|apply keeps_refl]|..]; (destruct c as [c|]; [|apply keeps_refl]); cbn [fst]; (eapply keeps_trans; [apply (keeps_put h r d (Some c)); [intros [X|X]; congruence|discriminate]|]); [apply sum_loop_keeps|apply product_loop_keeps]; auto.
Qed.
Lemma init_keeps h r fuel : keeps h (let (h, _) := propagate fuel In_ h r (n_in (at_ h r)) in let (h, _) := propagate fuel Out_ h r (n_out (at_ h r)) in h).
Proof. pose proof (propagate_keeps fuel In_ h r (n_in (at_ h r))) as K1. destruct (propagate fuel In_ h r _) as (h1 & r1). pose proof (propagate_keeps fuel Out_ h1 r (n_out (at_ h1 r))) as K2. destruct (propagate fuel Out_ h1 r _) as (h2 & r2). eapply keeps_trans; eauto. Qed.
