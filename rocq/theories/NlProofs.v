From Coq Require Import QArith Qabs Qround Lqa String Ascii.
From Verif Require Import Base Algebra NlModel NlSpec.
Close Scope Q_scope. Close Scope string_scope.
Local Open Scope nat_scope.

(** ** Loops *)
Section Run.
Context {V : Type}.
Implicit Types m : mem V.
Fixpoint run (body : nat -> mem V -> mem V) (n k : nat) m : mem V := match n with O => m | S n => run body n (S k) (body k m) end.
(** an iteration writes [wr], and what it writes depends on [rd] only *)
Definition tame (body : nat -> mem V -> mem V) (wr rd : nat -> list Z) : Prop :=
  (forall k m p, ~ In p (wr k) -> body k m p = m p) /\
  (forall k m m' p, In p (wr k) -> (forall q, In q (rd k) -> m q = m' q) -> body k m p = body k m' p).
Lemma run_unchanged body wr rd : tame body wr rd -> forall n k m p, (forall i, k <= i < k + n -> ~ In p (wr i)) -> run body n k m p = m p.
Proof.
  intros [T _] n. induction n as [|n IH]; intros k m p H; cbn [run]; [reflexivity|].
  rewrite IH by (intros i Hi; apply H; lia). apply T, H. lia.
Qed.
Lemma run_ok body wr rd : tame body wr rd -> forall n k m i p, k <= i < k + n ->
  (forall j l, k <= j < l -> l < k + n -> forall q, In q (wr j) -> ~ In q (rd l)) -> (forall j l, k <= j < l -> l < k + n -> forall q, In q (wr j) -> ~ In q (wr l)) ->
  In p (wr i) -> run body n k m p = body i m p.
Proof.
  intros T n. induction n as [|n IH]; intros k m i p Hi NR NW P; [lia|]. cbn [run]. destruct (Nat.eq_dec i k) as [->|N].
  - apply (run_unchanged body wr rd T). intros l Hl. apply (NW k l); try lia. exact P.
  - rewrite (IH (S k) (body k m) i p); try lia; try (intros; eapply NR; eauto; lia); try (intros; eapply NW; eauto; lia); [|exact P].
    apply (proj2 T); [exact P|]. intros q Q. apply (proj1 T). intros W. exact (NR k i ltac:(lia) ltac:(lia) q W Q).
Qed.
Lemma run_spec body wr rd n m : tame body wr rd -> no_overwrite n wr rd -> no_overwrite n wr wr ->
  (forall i p, i < n -> In p (wr i) -> run body n 0 m p = body i m p) /\ unchanged n wr m (run body n 0 m).
Proof.
  intros T R W. split.
  - intros i p Hi P. apply (run_ok body wr rd T); try lia; try exact P; intros j l H1 H2 q Q; [apply (R l j)|apply (W l j)]; auto; lia.
  - intros p H. apply (run_unchanged body wr rd T). intros i Hi. apply H. lia.
Qed.
Lemma cell_S p s k : (cell p s k + s)%Z = cell p s (S k). Proof. unfold cell. lia. Qed.
Lemma cell_0 p s : cell p s 0 = p. Proof. unfold cell. lia. Qed.
Lemma upd_same m p v : upd m p v p = v. Proof. unfold upd. rewrite Z.eqb_refl. reflexivity. Qed.
Lemma upd_other m p v q : q <> p -> upd m p v q = m q. Proof. unfold upd. destruct (Z.eqb_spec q p); congruence. Qed.
Lemma upd_first m p a b : upd (upd m p a) (p + 1) b p = a.
Proof. rewrite upd_other by lia. apply upd_same. Qed.
Lemma run_ext body body' : (forall k m, body k m = body' k m) -> forall n k m, run body n k m = run body' n k m.
Proof. intros E n. induction n; intros k m; cbn; [reflexivity|]. rewrite E. apply IHn. Qed.
Definition body2 (f : V -> V -> V) ip1 is1 ip2 is2 op os k m : mem V := upd m (cell op os k) (f (m (cell ip1 is1 k)) (m (cell ip2 is2 k))).
Lemma loop2_run f ip1 is1 ip2 is2 op os : forall n k m,
  loop2 f n (cell ip1 is1 k) is1 (cell ip2 is2 k) is2 (cell op os k) os m = run (body2 f ip1 is1 ip2 is2 op os) n k m.
Proof. induction n as [|n IH]; intros k m; [reflexivity|]. cbn [loop2 run]. rewrite !cell_S, IH. reflexivity. Qed.
Lemma body2_tame f ip1 is1 ip2 is2 op os : tame (body2 f ip1 is1 ip2 is2 op os) (one op os) (fun k => one ip1 is1 k ++ one ip2 is2 k).
Proof.
  split.
  - intros k m p H. apply upd_other. intros ->. apply H. left. reflexivity.
  - intros k m m' p [<-|[]] E. unfold body2. rewrite !upd_same, !E by (cbn; auto). reflexivity.
Qed.
Definition body1 (f : V -> V) ip is op os k m : mem V := upd m (cell op os k) (f (m (cell ip is k))).
Lemma loop1_run f ip is op os : forall n k m, loop1 f n (cell ip is k) is (cell op os k) os m = run (body1 f ip is op os) n k m.
Proof. induction n as [|n IH]; intros k m; [reflexivity|]. cbn [loop1 run]. rewrite !cell_S, IH. reflexivity. Qed.
Lemma body1_tame f ip is op os : tame (body1 f ip is op os) (one op os) (one ip is).
Proof.
  split.
  - intros k m p H. apply upd_other. intros ->. apply H. left. reflexivity.
  - intros k m m' p [<-|[]] E. unfold body1. rewrite !upd_same, !E by (cbn; auto). reflexivity.
Qed.

Section Masking.
Context (zero : V) (mask : Z -> bool).
Definition body_in mp ms op os k m : mem V := if mask (cell mp ms k) then upd m (cell op os k) zero else m.
Lemma inplace_run mp ms op os : forall n k m, masking_inplace zero n mask (cell mp ms k) ms (cell op os k) os m = run (body_in mp ms op os) n k m.
Proof. induction n as [|n IH]; intros k m; [reflexivity|]. cbn [masking_inplace run]. rewrite !cell_S, IH. reflexivity. Qed.
Lemma in_tame mp ms op os : tame (body_in mp ms op os) (one op os) (one op os).
Proof.
  split.
  - intros k m p H. unfold body_in. destruct (mask _); [|reflexivity]. apply upd_other. intros ->. apply H. left. reflexivity.
  - intros k m m' p [<-|[]] E. unfold body_in. destruct (mask _); [rewrite !upd_same; reflexivity|]. apply E. cbn. auto.
Qed.
Definition body_cp ip is mp ms op os k m : mem V := if mask (cell mp ms k) then upd m (cell op os k) zero else upd m (cell op os k) (m (cell ip is k)).
Lemma copy_run ip is mp ms op os : forall n k m,
  masking_copy zero n mask (cell ip is k) is (cell mp ms k) ms (cell op os k) os m = run (body_cp ip is mp ms op os) n k m.
Proof. induction n as [|n IH]; intros k m; [reflexivity|]. cbn [masking_copy run]. rewrite !cell_S, IH. reflexivity. Qed.
Lemma cp_tame ip is mp ms op os : tame (body_cp ip is mp ms op os) (one op os) (one ip is).
Proof.
  split.
  - intros k m p H. unfold body_cp. destruct (mask _); apply upd_other; intros ->; apply H; left; reflexivity.
  - intros k m m' p [<-|[]] E. unfold body_cp. destruct (mask _); rewrite !upd_same; [reflexivity|]. apply E. cbn. auto.
Qed.
Definition cbody_in mp ms op os k m : mem V := if mask (cell mp ms k) then upd (upd m (cell op os k) zero) (cell op os k + 1)%Z zero else m.
Lemma cinplace_run mp ms op os : forall n k m, cmasking_inplace zero n mask (cell mp ms k) ms (cell op os k) os m = run (cbody_in mp ms op os) n k m.
Proof. induction n as [|n IH]; intros k m; [reflexivity|]. cbn [cmasking_inplace run]. rewrite !cell_S, IH. reflexivity. Qed.
Lemma cin_tame mp ms op os : tame (cbody_in mp ms op os) (two op os) (two op os).
Proof.
  split.
  - intros k m p H. unfold cbody_in. destruct (mask _); [|reflexivity]. rewrite !upd_other; [reflexivity|intros ->; apply H; cbn; auto|intros ->; apply H; cbn; auto].
  - intros k m m' p P E. unfold cbody_in. destruct (mask _); [|apply E; exact P]. destruct P as [<-|[<-|[]]]; [|rewrite !upd_same; reflexivity].
    rewrite !upd_first. reflexivity.
Qed.
Definition cbody_cp ip is mp ms op os k m : mem V :=
  if mask (cell mp ms k) then upd (upd m (cell op os k) zero) (cell op os k + 1)%Z zero
  else upd (upd m (cell op os k) (m (cell ip is k))) (cell op os k + 1)%Z (m (cell ip is k + 1)%Z).
Lemma ccopy_run ip is mp ms op os : forall n k m,
  cmasking_copy zero n mask (cell ip is k) is (cell mp ms k) ms (cell op os k) os m = run (cbody_cp ip is mp ms op os) n k m.
Proof. induction n as [|n IH]; intros k m; [reflexivity|]. cbn [cmasking_copy run]. rewrite !cell_S, IH. reflexivity. Qed.
Lemma ccp_tame ip is mp ms op os : tame (cbody_cp ip is mp ms op os) (two op os) (two ip is).
Proof.
  split.
  - intros k m p H. unfold cbody_cp. destruct (mask _); (rewrite !upd_other; [reflexivity|intros ->; apply H; cbn; auto|intros ->; apply H; cbn; auto]).
  - intros k m m' p P E. unfold cbody_cp. destruct (mask _); (destruct P as [<-|[<-|[]]]; [rewrite !upd_first|rewrite !upd_same]); try reflexivity; apply E; cbn; auto.
Qed.
End Masking.
End Run.

Section RunK.
Context {K : cring}.
Definition body_abs2 ip is op os k (m : mem K) : mem K :=
  upd m (cell op os k) (radd (rmul (m (cell ip is k)) (m (cell ip is k))) (rmul (m (cell ip is k + 1)%Z) (m (cell ip is k + 1)%Z))).
Lemma abs2_run ip is op os : forall n k m, abs2 n (cell ip is k) is (cell op os k) os m = run (body_abs2 ip is op os) n k m.
Proof. induction n as [|n IH]; intros k m; [reflexivity|]. cbn [abs2 run]. rewrite !cell_S, IH. reflexivity. Qed.
Lemma abs2_tame ip is op os : tame (body_abs2 ip is op os) (one op os) (two ip is).
Proof.
  split.
  - intros k m p H. apply upd_other. intros ->. apply H. left. reflexivity.
  - intros k m m' p [<-|[]] E. unfold body_abs2. rewrite !upd_same, !E by (cbn; auto). reflexivity.
Qed.
Definition body_mc ip1 is1 ip2 is2 op os k (m : mem K) : mem K :=
  let a := m (cell ip1 is1 k) in let b := m (cell ip1 is1 k + 1)%Z in let c := m (cell ip2 is2 k) in let d := m (cell ip2 is2 k + 1)%Z in
  upd (upd m (cell op os k) (radd (rmul a c) (rmul b d))) (cell op os k + 1)%Z (radd (rmul (ropp a) d) (rmul b c)).
Lemma mc_run ip1 is1 ip2 is2 op os : forall n k m,
  multiply_conjugate n (cell ip1 is1 k) is1 (cell ip2 is2 k) is2 (cell op os k) os m = run (body_mc ip1 is1 ip2 is2 op os) n k m.
Proof. induction n as [|n IH]; intros k m; [reflexivity|]. cbn [multiply_conjugate run]. rewrite !cell_S, IH. reflexivity. Qed.
Lemma mc_tame ip1 is1 ip2 is2 op os : tame (body_mc ip1 is1 ip2 is2 op os) (two op os) (fun k => two ip1 is1 k ++ two ip2 is2 k).
Proof.
  split.
  - intros k m p H. unfold body_mc. cbn zeta. rewrite !upd_other; [reflexivity|intros ->; apply H; cbn; auto|intros ->; apply H; cbn; auto].
  - intros k m m' p [<-|[<-|[]]] E; unfold body_mc; cbn zeta; [rewrite !upd_first|rewrite !upd_same]; rewrite !E by (cbn; auto); reflexivity.
Qed.
End RunK.

(** ** Numbers *)
Local Open Scope Q_scope.
Lemma gtb_spec x y : if gtb x y then y < x else x <= y.
Proof.
  unfold gtb. destruct (Qle_bool x y) eqn:E; cbn [negb]; [apply Qle_bool_iff, E|].
  apply Qnot_le_lt. intros L. apply Qle_bool_iff in L. congruence.
Qed.
Lemma abs_spec x : (0 <= x /\ Qabs x == x) \/ (x < 0 /\ Qabs x == - x).
Proof. destruct (Qlt_le_dec x 0); [right|left]; split; auto; [apply Qabs_neg; lra|apply Qabs_pos; auto]. Qed.
Ltac nabs := repeat match goal with
  | |- context [Qabs ?x] => let E := fresh in destruct (abs_spec x) as [[? E]|[? E]]; try rewrite !E; generalize dependent (Qabs x); intros
  | H : context [Qabs ?x] |- _ => let E := fresh in destruct (abs_spec x) as [[? E]|[? E]]; generalize dependent (Qabs x); intros
  end.
Ltac ngt := repeat match goal with
  | |- context [gtb ?x ?y] => pose proof (gtb_spec x y); destruct (gtb x y)
  | H : context [gtb ?x ?y] |- _ => pose proof (gtb_spec x y); destruct (gtb x y)
  end.
Lemma hard_above x a : a < Qabs x -> hard x a = x.
Proof. intros H. unfold hard. pose proof (gtb_spec (Qabs x) a) as G. destruct (gtb _ _); [reflexivity|lra]. Qed.
Lemma hard_below x a : Qabs x <= a -> hard x a = 0.
Proof. intros H. unfold hard. pose proof (gtb_spec (Qabs x) a) as G. destruct (gtb _ _); [lra|reflexivity]. Qed.
Lemma hard_comp x y a b : x == y -> a == b -> hard x a == hard y b.
Proof.
  intros E F. unfold hard. pose proof (gtb_spec (Qabs x) a) as G. pose proof (gtb_spec (Qabs y) b) as H. pose proof (Qabs_wd x y E) as A.
  destruct (gtb (Qabs x) a), (gtb (Qabs y) b); try exact E; try reflexivity; lra.
Qed.
Lemma hard_hard x a b : 0 <= a -> 0 <= b -> hard (hard x b) a == hard x (qmax a b).
Proof.
  intros A B. unfold hard, qmax. ngt; try reflexivity; try lra; change (Qabs 0) with 0 in *; try lra.
Qed.
Lemma hard_zero x : hard x 0 == x.
Proof. unfold hard. ngt; [reflexivity|]. pose proof (abs_spec x). lra. Qed.
Lemma soft_zero x : soft x 0 == x.
Proof. unfold soft, copysign. cbn zeta. ngt; nabs; lra. Qed.
Lemma soft_comp x y a b : x == y -> a == b -> soft x a == soft y b.
Proof.
  intros E F. pose proof (Qabs_wd x y E) as A. unfold soft, copysign. cbn zeta.
  pose proof (gtb_spec (Qabs x - a) 0) as G1. pose proof (gtb_spec (Qabs y - b) 0) as G2. pose proof (gtb_spec 0 x) as G3. pose proof (gtb_spec 0 y) as G4.
  destruct (gtb (Qabs x - a) 0), (gtb (Qabs y - b) 0), (gtb 0 x), (gtb 0 y); try lra; try reflexivity.
  - rewrite (Qabs_wd (Qabs x - a) (Qabs y - b)) by lra. reflexivity.
  - apply Qabs_wd. lra.
Qed.
Lemma soft_spec x a : 0 <= a -> (Qabs x <= a -> soft x a == 0) /\ (a < x -> soft x a == x - a) /\ (x < - a -> soft x a == x + a).
Proof. intros A. unfold soft, copysign. cbn zeta. ngt; nabs; repeat split; intros; lra. Qed.
Lemma soft_cases x a : 0 <= a -> (soft x a == 0 /\ - a <= x <= a) \/ (soft x a == x - a /\ a < x) \/ (soft x a == x + a /\ x < - a).
Proof.
  intros A. destruct (soft_spec x a A) as (S1 & S2 & S3). destruct (Qlt_le_dec a x); [right; left; auto|]. destruct (Qlt_le_dec x (- a)); [right; right; auto|].
  left. split; [|lra]. apply S1. nabs; lra.
Qed.
Lemma square_nonneg x : 0 <= x * x.
Proof. destruct (Qlt_le_dec x 0); [setoid_replace (x * x) with ((- x) * (- x)) by ring|]; apply Qmult_le_0_compat; lra. Qed.
Lemma qmax_spec x y : (qmax x y == x \/ qmax x y == y) /\ x <= qmax x y /\ y <= qmax x y.
Proof. unfold qmax. ngt; repeat split; lra. Qed.
Lemma qmin_spec x y : (qmin x y == x \/ qmin x y == y) /\ qmin x y <= x /\ qmin x y <= y.
Proof. unfold qmin. ngt; repeat split; lra. Qed.
Lemma qmax_nonneg x y : 0 <= x -> 0 <= qmax x y. Proof. pose proof (qmax_spec x y). lra. Qed.

(** rounding *)
Lemma floor_spec x : floor x <= x < floor x + 1.
Proof. unfold floor. split; [apply Qfloor_le|]. pose proof (Qlt_floor x) as H. rewrite inject_Z_plus in H. exact H. Qed.
Lemma ceil_spec x : ceil x - 1 < x <= ceil x.
Proof. unfold ceil. split; [|apply Qle_ceiling]. pose proof (Qceiling_lt x) as H. unfold Z.sub in H. rewrite inject_Z_plus in H. exact H. Qed.
Lemma integer_eq x y : is_integer x -> is_integer y -> x - y < 1 -> y - x < 1 -> x == y.
Proof.
  intros [a A] [b B]. rewrite A, B. intros H1 H2. assert (a < b + 1)%Z as L1. { rewrite Zlt_Qlt, inject_Z_plus. change (inject_Z 1) with 1. lra. }
  assert (b < a + 1)%Z as L2. { rewrite Zlt_Qlt, inject_Z_plus. change (inject_Z 1) with 1. lra. }
  replace a with b by lia. reflexivity.
Qed.
Lemma integer_floor x : is_integer (floor x). Proof. eexists. reflexivity. Qed.
Lemma integer_ceil x : is_integer (ceil x). Proof. eexists. reflexivity. Qed.
Lemma integer_add x z : is_integer x -> is_integer (x + inject_Z z).
Proof. intros [a A]. exists (a + z)%Z. rewrite inject_Z_plus, A. reflexivity. Qed.
Lemma integer_0 : is_integer 0. Proof. exists 0%Z. reflexivity. Qed.
Lemma integer_between x y : is_integer x -> is_integer y -> x <= y \/ y + 1 <= x.
Proof.
  intros [a A] [b B]. rewrite A, B. destruct (Z_le_gt_dec a b); [left; rewrite <- Zle_Qle; assumption|right].
  change 1 with (inject_Z 1). rewrite <- inject_Z_plus, <- Zle_Qle. lia.
Qed.
Lemma rtz_ok x : rounds "rtz" x (trunc x).
Proof.
  unfold rounds, trunc. cbn [String.eqb Ascii.eqb Bool.eqb]. pose proof (floor_spec x). pose proof (ceil_spec x). pose proof (gtb_spec 0 x) as G.
  pose proof (integer_between 0 (floor x) integer_0 (integer_floor x)). pose proof (integer_between (ceil x) 0 (integer_ceil x) integer_0).
  destruct (gtb 0 x); (split; [first [apply integer_ceil|apply integer_floor]|]); (split; [|split; [nra|]]); nabs; lra.
Qed.
Lemma rtmi_ok x : rounds "rtmi" x (floor x).
Proof. split; [apply integer_floor|]. apply floor_spec. Qed.
Lemma rtpi_ok x : rounds "rtpi" x (ceil x).
Proof. split; [apply integer_ceil|]. apply ceil_spec. Qed.
Lemma rhtmi_ok x : rounds "rhtmi" x (rhtmi x).
Proof. split; [apply (integer_add _ (-1)), integer_ceil|]. cbn [String.eqb Ascii.eqb Bool.eqb]. unfold rhtmi. pose proof (ceil_spec (x + (1 # 2))). lra. Qed.
Lemma rhtpi_ok x : rounds "rhtpi" x (rhtpi x).
Proof. split; [apply (integer_add _ 1), integer_floor|]. cbn [String.eqb Ascii.eqb Bool.eqb]. unfold rhtpi. pose proof (floor_spec (x + - (1 # 2))). lra. Qed.
Lemma rhte_ok x : rounds "rhte" x (rhte x).
Proof.
  unfold rounds. cbn [String.eqb Ascii.eqb Bool.eqb]. pose proof (floor_spec x) as F. unfold floor in F. unfold rhte. cbn zeta. pose proof (gtb_spec (1 # 2) (x - inject_Z (Qfloor x))) as G1.
  pose proof (gtb_spec (x - inject_Z (Qfloor x)) (1 # 2)) as G2. assert (inject_Z (Qfloor x + 1) == inject_Z (Qfloor x) + 1) as S by (rewrite inject_Z_plus; reflexivity).
  destruct (gtb (1 # 2) _); [|destruct (gtb _ (1 # 2)); [|destruct (Z.even (Qfloor x)) eqn:E]]; (split; [eexists; reflexivity|]); (split; [nabs; lra|]); intros T.
  - exfalso. revert T. nabs; lra.
  - exfalso. revert T. rewrite S. nabs; lra.
  - apply Z.even_spec in E. destruct E as [k E]. exists k. rewrite E. reflexivity.
  - rewrite <- Z.negb_odd in E. apply negb_false_iff in E. apply Z.odd_spec in E. destruct E as [k E]. exists (k + 1)%Z. apply inject_Z_injective. lia.
Qed.
Lemma rounds_integer m x y : rounds m x y -> is_integer x -> y == x.
Proof.
  intros [I R] X. apply integer_eq; auto; repeat match type of R with context [if ?b then _ else _] => destruct b end; try contradiction.
  all: try lra.
  all: first [destruct R as (_ & _ & R) | destruct R as (R & _)]; revert R; nabs; lra.
Qed.
Lemma maximum_at a b n i : (length a = n \/ length a = 1)%nat -> (length b = n \/ length b = 1)%nat -> (i < n)%nat ->
  at_ (maximum a b) i = qmax (at_ a i) (at_ b i) /\ (length (maximum a b) = n \/ length (maximum a b) = 1)%nat.
Proof.
  intros A B Hi. destruct a as [|v [|v' a]]; [cbn in A; lia| |].
  - cbn [maximum at_]. rewrite map_length. split; [|exact B]. destruct b as [|w [|w' b]]; [cbn in B; lia|reflexivity|]. cbn [map at_].
    change (qmax v w :: qmax v w' :: map (fun w => qmax v w) b) with (map (fun w => qmax v w) (w :: w' :: b)).
    rewrite (nth_indep _ 0 (qmax v 0)) by (rewrite map_length; cbn in *; lia). apply (map_nth (fun w => qmax v w)).
  - assert (length (v :: v' :: a) = n) as L by (cbn in *; lia). destruct b as [|w [|w' b]]; [cbn in B; lia| |].
    + cbn [maximum]. rewrite map_length. split; [|auto]. cbn [map at_].
      change (qmax v w :: qmax v' w :: map (fun v => qmax v w) a) with (map (fun v => qmax v w) (v :: v' :: a)).
      rewrite (nth_indep _ 0 (qmax 0 w)) by (rewrite map_length; cbn in *; lia). apply (map_nth (fun v => qmax v w)).
    + assert (length (w :: w' :: b) = n) as L' by (cbn in *; lia). cbn [maximum]. rewrite map_length, combine_length, L, L', Nat.min_id. split; [|auto].
      cbn [combine map at_]. change (qmax (fst (v, w)) (snd (v, w)) :: qmax (fst (v', w')) (snd (v', w')) :: map (fun p => qmax (fst p) (snd p)) (combine a b))
        with (map (fun p => qmax (fst p) (snd p)) (combine (v :: v' :: a) (w :: w' :: b))).
      rewrite (nth_indep _ 0 (qmax (fst (0, 0)) (snd (0, 0)))) by (rewrite map_length, combine_length, L, L', Nat.min_id; exact Hi).
      rewrite (map_nth (fun p => qmax (fst p) (snd p))), combine_nth by congruence. reflexivity.
Qed.
Section CP.
Context {K : cring}.
Add Ring KringN : (rth K).
Lemma conjugate_product (a b c d : K) : (radd (rmul a c) (rmul b d) = a * c - b * (- d) /\ radd (rmul (ropp a) d) (rmul b c) = a * (- d) + b * c)%cr.
Proof. split; ring. Qed.
End CP.
