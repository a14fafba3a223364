From Coq Require Import List Arith Bool Lia.
From Verif Require Import Base FootModel FootSpec.
Import ListNotations.
Set Implicit Arguments. Unset Strict Implicit.

Lemma total_fold l : total l = fold_right plus 0 l.
Proof. induction l as [|n l IH]; [reflexivity|]. cbn. rewrite IH. reflexivity. Qed.
Lemma total_app l l' : total (l ++ l') = total l + total l'.
Proof. induction l as [|n l IH]; [reflexivity|]. cbn. rewrite IH. lia. Qed.
Lemma arrays_composite i l : arrays (Op i (Composite l)) = flat_map arrays l.
Proof. cbn [arrays]. induction l as [|o l IH]; [reflexivity|]. cbn [flat_map]. rewrite <- IH. reflexivity. Qed.
Lemma inside_composite i l : inside (Op i (Composite l)) = Op i (Composite l) :: flat_map inside l.
Proof. reflexivity. Qed.
Lemma depth_composite i l o : In o l -> depth o < depth (Op i (Composite l)).
Proof.
  intros I. cbn [depth]. apply le_n_S. induction l as [|p l IH]; [destruct I|]. destruct I as [->|I]; [lia|]. specialize (IH I). lia.
Qed.
Lemma depth_le i l f : depth (Op i (Composite l)) <= S f -> forall o, In o l -> depth o <= f.
Proof. intros D o I. pose proof (depth_composite i I). lia. Qed.
Lemma inside_self o : In o (inside o).
Proof. destruct o; left; reflexivity. Qed.
Lemma coherent_operand i l o : coherent (Op i (Composite l)) -> In o l -> coherent o.
Proof.
  intros C I p p' P P'. apply C; rewrite inside_composite; right; apply in_flat_map; exists o; split; assumption.
Qed.
Lemma coherent_operands i l o p : coherent (Op i (Composite l)) -> In o l -> In p l -> id_of o = id_of p -> o = p.
Proof. intros C I J. apply C; rewrite inside_composite; right; apply in_flat_map; [exists o|exists p]; (split; [assumption|apply inside_self]). Qed.

Lemma unique_in l o : In o (unique l) -> In o l.
Proof.
  induction l as [|p l IH]; [tauto|]. cbn [unique]. destruct (existsb _ l); intros I; [right; apply IH, I|]. destruct I as [->|I]; [left; reflexivity|right; apply IH, I].
Qed.
Lemma unique_covers l : (forall o p, In o l -> In p l -> id_of o = id_of p -> o = p) -> forall o, In o l -> In o (unique l).
Proof.
  induction l as [|q l IH]; intros C o I; [destruct I|]. cbn [unique]. assert (forall o p, In o l -> In p l -> id_of o = id_of p -> o = p) as C' by (intros a b A B; apply C; right; assumption).
  destruct (existsb (fun p => id_of q =? id_of p) l) eqn:X.
  - destruct I as [->|I]; [|apply IH; assumption]. apply existsb_exists in X. destruct X as (p & P & E). apply Nat.eqb_eq in E. rewrite (C o p (or_introl eq_refl) (or_intror P) E). apply IH; assumption.
  - destruct I as [->|I]; [left; reflexivity|right; apply IH; assumption].
Qed.
Lemma unique_nodup l : NoDup (map id_of (unique l)).
Proof.
  induction l as [|q l IH]; cbn [unique map]; [constructor|]. destruct (existsb (fun p => id_of q =? id_of p) l) eqn:X; [exact IH|]. cbn [map]. constructor; [|exact IH].
  intros I. apply in_map_iff in I. destruct I as (p & E & P). apply unique_in in P. assert (existsb (fun p => id_of q =? id_of p) l = true) as Y by (apply existsb_exists; exists p; split; [exact P|apply Nat.eqb_eq; symmetry; exact E]). congruence.
Qed.

Section Size.
Variable size : array -> nat.
Local Notation weight l := (total (map size l)).
(** The arrays that nbytes counts, with repetitions *)
Fixpoint counted (fuel : nat) (o : operator) : list array :=
  match fuel, o with
  | O, _ => []
  | _, Op _ (Arrays l) => l
  | _, Op _ (Power _) => []
  | S f, Op _ (Composite l) => flat_map (counted f) (unique l)
  end.
Lemma weight_flat (f : operator -> list array) l : weight (flat_map f l) = total (map (fun o => weight (f o)) l).
Proof. induction l as [|o l IH]; [reflexivity|]. cbn [flat_map map]. rewrite map_app, total_app, IH. reflexivity. Qed.
Lemma mapM_ok (A B : Type) (f : A -> result B) (g : A -> B) l : (forall x, In x l -> f x = Ok (g x)) -> mapM f l = Ok (map g l).
Proof. induction l as [|x l IH]; intros H; [reflexivity|]. cbn [mapM map]. rewrite (H x) by (left; reflexivity). cbn. rewrite IH by (intros y Y; apply H; right; exact Y). reflexivity. Qed.
Lemma nbytes_counted f : forall o, depth o <= f -> ~ has_power o -> nbytes size f o = Ok (weight (counted f o)).
Proof.
  induction f as [|f IH]; intros [i [l|n|l]] D P.
  - cbn [depth] in D. lia.
  - cbn [depth] in D. lia.
  - cbn [depth] in D. lia.
  - reflexivity.
  - exfalso. apply P. exists (Op i (Power n)), n. split; [left; reflexivity|reflexivity].
  - cbn [nbytes counted]. rewrite weight_flat. rewrite (mapM_ok (g := fun o => weight (counted f o))); [reflexivity|]. intros o O. apply unique_in in O. apply IH; [apply (depth_le D O)|].
    intros (p & n & I & E). apply P. exists p, n. split; [rewrite inside_composite; right; apply in_flat_map; exists o; split; assumption|exact E].
Qed.
Lemma counted_covers f : forall o, depth o <= f -> coherent o -> incl (arrays o) (counted f o).
Proof.
  induction f as [|f IH]; intros [i [l|n|l]] D C.
  - cbn [depth] in D. lia.
  - cbn [depth] in D. lia.
  - cbn [depth] in D. lia.
  - intros a A. exact A.
  - intros a A. exact A.
  - rewrite arrays_composite. cbn [counted]. intros a A. apply in_flat_map in A. destruct A as (o & O & A). apply in_flat_map. exists o.
    split; [apply unique_covers; [intros p q P Q; apply (coherent_operands C P Q)|exact O]|]. apply IH; [apply (depth_le D O)|apply (coherent_operand C O)|exact A].
Qed.
Lemma counted_sub f : forall o, incl (counted f o) (arrays o).
Proof.
  induction f as [|f IH]; intros [i [l|n|l]] a A; [destruct A|destruct A|destruct A|exact A|exact A|]. rewrite arrays_composite. cbn [counted] in A. apply in_flat_map in A. destruct A as (o & O & A).
  apply in_flat_map. exists o. split; [apply unique_in, O|apply IH, A].
Qed.
Lemma weight_incl : forall l l' : list array, NoDup l -> incl l l' -> weight l <= weight l'.
Proof.
  induction l as [|a l IH]; intros l' N I; [cbn; lia|]. inversion N as [|? ? X Y]; subst. destruct (in_split a l' (I a (or_introl eq_refl))) as (u & v & ->).
  assert (weight l <= weight (u ++ v)) as W.
  { apply IH; [exact Y|]. intros b B. assert (In b (u ++ a :: v)) as J by (apply I; right; exact B). apply in_app_or in J. apply in_or_app. destruct J as [J|[->|J]]; [left; exact J|contradiction|right; exact J]. }
  rewrite !map_app, !total_app in *. cbn [map total] in *. lia.
Qed.
Lemma held_weight o : held size o = weight (nodup Nat.eq_dec (arrays o)).
Proof. unfold held. symmetry. apply total_fold. Qed.
Lemma nbytes_upper f o : depth o <= f -> coherent o -> ~ has_power o -> exists n, nbytes size f o = Ok n /\ held size o <= n.
Proof.
  intros D C P. exists (weight (counted f o)). split; [apply nbytes_counted; assumption|]. rewrite held_weight. apply weight_incl; [apply NoDup_nodup|]. intros a A. apply nodup_In in A. apply (counted_covers D C A).
Qed.
Lemma nbytes_exact f o : depth o <= f -> coherent o -> ~ has_power o -> NoDup (counted f o) -> nbytes size f o = Ok (held size o).
Proof.
  intros D C P N. rewrite (nbytes_counted D P). f_equal. rewrite held_weight. apply Nat.le_antisymm; apply weight_incl; try assumption.
  - intros a A. apply nodup_In. apply (counted_sub A).
  - apply NoDup_nodup.
  - intros a A. apply nodup_In in A. apply (counted_covers D C A).
Qed.

Lemma nodup_flat (f : operator -> list array) : forall l, NoDup (map id_of l) -> (forall o, In o l -> NoDup (f o)) ->
  (forall o p a, In o l -> In p l -> o <> p -> In a (f o) -> ~ In a (f p)) -> NoDup (flat_map f l).
Proof.
  induction l as [|o l IH]; intros N K D; [constructor|]. cbn [flat_map]. inversion N as [|? ? X Y]; subst.
  assert (NoDup (flat_map f l)) as R by (apply IH; [exact Y|intros p P; apply K; right; exact P|intros p q a P Q; apply D; right; assumption]).
  assert (NoDup (f o)) as F by (apply K; left; reflexivity).
  assert (forall a, In a (f o) -> ~ In a (flat_map f l)) as Z.
  { intros a A B. apply in_flat_map in B. destruct B as (p & P & B). apply (D o p a (or_introl eq_refl) (or_intror P)); [|exact A|exact B]. intros ->. apply X. apply in_map, P. }
  clear - R F Z. induction (f o) as [|a u IH]; [exact R|]. inversion F as [|? ? X Y]; subst. cbn [app]. constructor.
  - intros I. apply in_app_or in I. destruct I as [I|I]; [contradiction|apply (Z a); [left; reflexivity|exact I]].
  - apply IH; [exact Y|intros b B; apply Z; right; exact B].
Qed.
Lemma tidy_counted f : forall o, tidy o -> NoDup (counted f o).
Proof.
  induction f as [|f IH]; intros o T; [destruct o; constructor|]. inversion T as [i l N|i l K D]; subst; [exact N|]. cbn [counted].
  apply nodup_flat; [apply unique_nodup|intros p P; apply IH, K, unique_in, P|].
  intros p q a P Q NE A B. apply (D p q a (unique_in P) (unique_in Q) NE); eapply counted_sub; eassumption.
Qed.

(** ** Powers *)
Lemma mapM_raises (A B : Type) (f : A -> result B) l : (forall x, In x l -> (exists y, f x = Ok y) \/ f x = Raise AttributeError) -> (exists x, In x l /\ f x = Raise AttributeError) -> mapM f l = Raise AttributeError.
Proof.
  induction l as [|x l IH]; intros H (z & Z & E); [destruct Z|]. cbn [mapM]. destruct (H x (or_introl eq_refl)) as [[y Y]|Y]; [|rewrite Y; reflexivity].
  rewrite Y. cbn. destruct Z as [->|Z]; [congruence|]. rewrite IH; [reflexivity|intros w W; apply H; right; exact W|exists z; split; assumption].
Qed.
Lemma mapM_all (A B : Type) (f : A -> result B) l : (forall x, In x l -> exists y, f x = Ok y) -> exists r, mapM f l = Ok r.
Proof. induction l as [|x l IH]; intros H; [eexists; reflexivity|]. cbn [mapM]. destruct (H x (or_introl eq_refl)) as [y ->]. destruct IH as [r ->]; [intros z Z; apply H; right; exact Z|]. cbn. eexists. reflexivity. Qed.
Lemma plain_dec o : {has_plain_power o} + {~ has_plain_power o}.
Proof.
  destruct (existsb (fun p => match p with Op _ (Power PythonNumber) => true | _ => false end) (inside o)) eqn:E.
  - left. apply existsb_exists in E. destruct E as ([i [l|[|b]|l]] & I & T); try discriminate T. exists (Op i (Power PythonNumber)). split; [exact I|reflexivity].
  - right. intros (p & I & Q). assert (existsb (fun p => match p with Op _ (Power PythonNumber) => true | _ => false end) (inside o) = true) as X by (apply existsb_exists; exists p; split; [exact I|rewrite Q; reflexivity]). congruence.
Qed.
Lemma nbytes_power f : forall o, depth o <= f -> coherent o -> (has_plain_power o -> nbytes size f o = Raise AttributeError) /\ (~ has_plain_power o -> exists n, nbytes size f o = Ok n).
Proof.
  induction f as [|f IH]; intros [i [l|n|l]] D C; try (cbn [depth] in D; lia).
  - split; [intros (p & [<-|[]] & E); discriminate E|intros _; eexists; reflexivity].
  - split.
    + intros (p & [<-|[]] & E). cbn [id_of] in E. injection E as ->. reflexivity.
    + intros H. destruct n as [|b]; [|eexists; reflexivity]. exfalso. apply H. exists (Op i (Power PythonNumber)). split; [left; reflexivity|reflexivity].
  - assert (forall o, In o l -> (has_plain_power o -> nbytes size f o = Raise AttributeError) /\ (~ has_plain_power o -> exists n, nbytes size f o = Ok n)) as K by (intros o O; apply IH; [apply (depth_le D O)|apply (coherent_operand C O)]).
    cbn [nbytes]. split.
    + intros (p & I & E). rewrite inside_composite in I. destruct I as [<-|I]; [discriminate E|]. apply in_flat_map in I. destruct I as (o & O & I).
      rewrite mapM_raises; [reflexivity| |].
      * intros x X. apply unique_in in X. destruct (plain_dec x) as [Y|Y]; [right|left]; apply (K x X), Y.
      * exists o. split; [apply unique_covers; [intros a b A B; apply (coherent_operands C A B)|exact O]|]. apply (K o O). exists p. split; assumption.
    + intros H. destruct (mapM_all (f := nbytes size f) (l := unique l)) as [r ->]; [|eexists; reflexivity]. intros x X. apply unique_in in X. apply (K x X). intros (p & I & E). apply H. exists p.
      split; [rewrite inside_composite; right; apply in_flat_map; exists x; split; assumption|exact E].
Qed.
Lemma delete_ok f group : (forall o, In o group -> exists n, nbytes size f o = Ok n) -> delete size f group = (map id_of group, None).
Proof. induction group as [|o g IH]; intros H; [reflexivity|]. cbn [delete map]. destruct (H o (or_introl eq_refl)) as [n ->]. rewrite IH by (intros p P; apply H; right; exact P). reflexivity. Qed.
End Size.

(** Examples: a diagonal operator shared by two sums, and a square *)
Definition diagonal : operator := Op 0 (Arrays [10]).
Definition dense : operator := Op 1 (Arrays [11]).
Definition sum1 : operator := Op 2 (Composite [diagonal; dense; diagonal]).
Definition sum2 : operator := Op 3 (Composite [diagonal; Op 4 (Arrays [])]).
Definition nested : operator := Op 5 (Composite [sum1; sum2]).
Definition square : operator := Op 6 (Power PythonNumber).
Definition mixed : operator := Op 7 (Composite [square; diagonal]).
Definition bytes (a : array) : nat := if a =? 10 then 800 else 8000.
Lemma sum1_coherent : coherent sum1.
Proof. intros p p' P P' E. cbn [sum1 diagonal dense inside app In] in P, P'. repeat (destruct P as [<-|P]); try destruct P; repeat (destruct P' as [<-|P']); try destruct P'; (reflexivity || discriminate E). Qed.
Lemma nested_coherent : coherent nested.
Proof. intros p p' P P' E. cbn [nested sum1 sum2 diagonal dense inside app In] in P, P'. repeat (destruct P as [<-|P]); try destruct P; repeat (destruct P' as [<-|P']); try destruct P'; (reflexivity || discriminate E). Qed.
Lemma mixed_coherent : coherent mixed.
Proof. intros p p' P P' E. cbn [mixed square diagonal inside app In] in P, P'. repeat (destruct P as [<-|P]); try destruct P; repeat (destruct P' as [<-|P']); try destruct P'; (reflexivity || discriminate E). Qed.
Lemma nested_no_power : ~ has_power nested.
Proof. intros (p & n & P & E). cbn [nested sum1 sum2 diagonal dense inside app In] in P. repeat (destruct P as [<-|P]); try destruct P; discriminate E. Qed.
Lemma sum1_no_power : ~ has_power sum1.
Proof. intros (p & n & P & E). cbn [sum1 diagonal dense inside app In] in P. repeat (destruct P as [<-|P]); try destruct P; discriminate E. Qed.
Lemma sum1_tidy : tidy sum1.
Proof.
  assert (forall i a, tidy (Op i (Arrays [a]))) as K by (intros i a; constructor; constructor; [intros []|constructor]).
  constructor.
  - intros o [<-|[<-|[<-|[]]]]; apply K.
  - intros o p a [<-|[<-|[<-|[]]]] [<-|[<-|[<-|[]]]] N [<-|[]] B; cbn in B; (destruct B as [B|[]]; discriminate B) || (apply N; reflexivity).
Qed.
