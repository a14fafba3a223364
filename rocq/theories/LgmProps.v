(** C56: the least product of powers that is greater than or equal to a number. *)
From Verif Require Import Base LgmModel LgmSpec LgmProofs.
Local Open Scope Z_scope.

(** Whatever the numbers and the factors, if the arithmetic is exact and the logarithms are rounded up, each number is mapped to the least product of
    powers of the factors that is not less than it.  The numbers may be zero or negative but at least one of them must be positive. *)
Theorem C56_least (power : Z -> Z -> nat) (a factors : list Z) : rounds_up power -> Forall (fun v => 2 <= v) factors -> factors <> [] -> (exists x, In x a /\ 1 <= x) ->
  exists r, least_greater_multiple false (fun x => x) power a factors = Ok r /\ Forall2 (least_multiple factors) a r.
Proof. exact (lgm_least power factors a). Qed.

(** With 64-bit integers as well, if the product of the largest powers that are considered is less than 2^63. *)
Theorem C56_int64_partial (power : Z -> Z -> nat) (a factors : list Z) : rounds_up power -> Forall (fun v => 2 <= v) factors -> factors <> [] -> (exists x, In x a /\ 1 <= x) ->
  (forall m, In m a -> largest factors (fun v => power v m) < 2 ^ 63) ->
  exists r, least_greater_multiple false int64 power a factors = Ok r /\ Forall2 (least_multiple factors) a r.
Proof. exact (lgm_int64 power factors a). Qed.

(** The logarithms, rounded up: the least power that is not less than the number is a possible choice. *)
Theorem C56_logarithm : rounds_up clog /\ forall v m, 2 <= v -> 1 <= m -> m <= v ^ Z.of_nat (clog v m) /\ forall q, (q < clog v m)%nat -> v ^ Z.of_nat q < m.
Proof. split; [exact clog_rounds_up|exact clog_exact]. Qed.

(** There is only one such number, and it is less than the product of the number by any factor. *)
Theorem C56_unique (factors : list Z) (a r r' : Z) : least_multiple factors a r -> least_multiple factors a r' -> r = r'.
Proof. exact (least_unique factors a r r'). Qed.
Theorem C56_bound (factors : list Z) (a r v : Z) : Forall (fun v => 2 <= v) factors -> In v factors -> 1 <= a -> least_multiple factors a r -> r < v * a.
Proof. exact (least_bound factors a r v). Qed.

(** Factors that are not positive are refused. *)
Theorem C56_rejects (numpy2 : bool) (wrap : Z -> Z) (power : Z -> Z -> nat) (a factors : list Z) : (exists v, In v factors /\ v <= 0) ->
  least_greater_multiple numpy2 wrap power a factors = Raise ValueError.
Proof. exact (lgm_rejects numpy2 wrap power a factors). Qed.

Example ex_C56_least : least_greater_multiple false int64 clog [2253; 1; -3; 2048; 2305] [2; 3] = Ok [2304; 1; 1; 2048; 2592]
  /\ (forall m, In m [2253; 1; -3; 2048; 2305] -> largest [2; 3] (fun v => clog v m) < 2 ^ 63)
  /\ least_greater_multiple false int64 clog [1000; 10000] [7; 2; 5] = Ok [1000; 10000].
Proof. split; [vm_compute; reflexivity|]. split; [|vm_compute; reflexivity]. cbn [In]. intros m H. repeat destruct H as [<-|H]; try contradiction; vm_compute; reflexivity. Qed.
Example ex_C56_bound : least_multiple [2; 3] 2253 2304 /\ Forall (fun v => 2 <= v) [2; 3].
Proof.
  assert (F : Forall (fun v => 2 <= v) [2; 3]) by (repeat constructor; lia). split; [|exact F].
  destruct (C56_least clog [2253] [2; 3] clog_rounds_up F ltac:(discriminate)) as (r & E & L); [exists 2253; split; [left; reflexivity|lia]|].
  vm_compute in E. injection E as <-. inversion L; subst. assumption.
Qed.

(** The largest powers of all the factors are multiplied together, so that the integers overflow: for a = 251251301585999003, far below 2^63, the number that is
    returned is not a product of powers of 2 and 3 (the right answer is 259700248434180096). *)
Theorem C56_overflow_refuted : let a := 251251301585999003 in
  (exists r, least_greater_multiple false int64 clog [a] [2; 3] = Ok [r] /\ ~ product_of_powers [2; 3] r)
  /\ least_multiple [2; 3] a 259700248434180096 /\ 259700248434180096 < 2 ^ 58.
Proof.
  intros a. assert (L : least_multiple [2; 3] a 259700248434180096).
  { destruct (C56_least clog [a] [2; 3] clog_rounds_up ltac:(repeat constructor; lia) ltac:(discriminate)) as (r & E & L); [exists a; split; [left; reflexivity|lia]|].
    vm_compute in E. injection E as <-. inversion L; subst. assumption. }
  split; [|split; [exact L|reflexivity]]. exists 251673813551415296. split; [vm_compute; reflexivity|].
  intros P. destruct L as (_ & _ & L). specialize (L _ P ltac:(unfold a; lia)). lia.
Qed.
(** The factor 1 makes the function raise OverflowError, or ValueError, although it changes nothing to the products; so does a number equal to 0, whose least multiple is 1. *)
Theorem C56_one_refuted : least_greater_multiple false (fun x => x) clog [10] [1; 2] = Raise OverflowError
  /\ least_greater_multiple false (fun x => x) clog [1] [1; 2] = Raise ValueError
  /\ least_greater_multiple false (fun x => x) clog [0] [2; 3] = Raise OverflowError /\ least_multiple [2; 3] 0 1.
Proof.
  do 3 (split; [reflexivity|]). split; [|split; [lia|]]; [exact (pp_cons 2 [3] 0 1 (Z.le_refl 0) (pp_cons 3 [] 0 1 (Z.le_refl 0) pp_nil))|].
  intros x P _. revert P. apply powers_pos. repeat constructor; lia.
Qed.
(** From numpy 2 on, every call with valid arguments raises ValueError: np.amin is given the argument where without the argument initial. *)
Theorem C56_numpy2_refuted (power : Z -> Z -> nat) (a factors : list Z) : Forall (fun v => 2 <= v) factors -> (exists x, In x a /\ 1 <= x) ->
  least_greater_multiple true (fun x => x) power a factors = Raise ValueError.
Proof.
  intros F (x & Hx & H). destruct a as [|y a]; [contradiction|]. unfold least_greater_multiple. rewrite (existsb_neg _ F).
  rewrite powers_ok; [reflexivity| |exact F]. destruct (fold_max_le a y x) as (A & B). destruct Hx as [<-|Hx]; [lia|specialize (B Hx); lia].
Qed.
(** If a logarithm is rounded down, as happens in double precision for 10^15 + 1 and the factor 10, or 2^49 + 1 and the factor 2, no value is found and the result is 0. *)
Theorem C56_rounding_refuted : exists power : Z -> Z -> nat, (forall v m, 2 <= v -> 1 <= m -> m < v ^ (Z.of_nat (power v m) + 1)) /\
  least_greater_multiple false (fun x => x) power [10 ^ 15 + 1] [10] = Ok [0].
Proof.
  exists (fun v m => if m <=? v ^ Z.of_nat (clog v m) - 1 then Nat.pred (clog v m) else clog v m). split; [|vm_compute; reflexivity].
  intros v m Hv Hm. destruct (clog_exact v m Hv Hm) as (A & _). destruct (Z.leb_spec m (v ^ Z.of_nat (clog v m) - 1)) as [L|L].
  - destruct (clog v m) as [|q]; [cbn in *; lia|]. cbn [Nat.pred]. replace (Z.of_nat q + 1) with (Z.of_nat (S q)) by lia. lia.
  - apply Z.le_lt_trans with (v ^ Z.of_nat (clog v m)); [exact A|]. apply Z.pow_lt_mono_r; lia.
Qed.

Print Assumptions C56_least.
Print Assumptions C56_int64_partial.
Print Assumptions C56_logarithm.
Print Assumptions C56_unique.
Print Assumptions C56_bound.
Print Assumptions C56_rejects.
Print Assumptions C56_overflow_refuted.
Print Assumptions C56_one_refuted.
Print Assumptions C56_numpy2_refuted.
Print Assumptions C56_rounding_refuted.
