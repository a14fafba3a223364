(** Proofs for C45: operators and helper functions. *)
From Coq Require Import String.
From Verif Require Import Base Algebra Ofield CgModel SplitModel SplitSpec SplitProofs SpmdModel SpmdSpec SpmdProofs.
Local Open Scope nat_scope.

Section Sums.
Context {K : cring}.
Add Ring KringSpmd : (rth K).
Local Open Scope cr_scope.
Lemma zip_length {A B C} (f : A -> B -> C) x y : length x = length y -> length (zip f x y) = length x.
Proof. intros H. unfold zip. rewrite map_length, combine_length. lia. Qed.
Lemma ldot_zip (x : list K) : forall a b, length a = length x -> length b = length x -> ldot x (zip radd a b) = ldot x a + ldot x b.
Proof.
  induction x as [|e x IH]; intros [|a l] [|b l'] Ha Hb; try discriminate; [unfold ldot; cbn; ring|]. cbn in Ha, Hb. change (zip radd (a :: l) (b :: l')) with (a + b :: zip radd l l'). rewrite !ldot_cons, IH by lia. ring.
Qed.
Lemma vsum_cons (x : list K) l : l <> [] -> vsum (x :: l) = zip radd x (vsum l).
Proof. destruct l; [congruence|reflexivity]. Qed.
Lemma vsum_length n (l : list (list K)) : l <> [] -> Forall (fun x => length x = n) l -> length (vsum l) = n.
Proof.
  induction l as [|x l IH]; intros N F; [congruence|]. apply Forall_cons_iff in F. destruct F as [Hx F]. destruct l as [|y l]; [exact Hx|]. rewrite vsum_cons by discriminate. assert (L : length (vsum (y :: l)) = n) by (apply IH; [discriminate|exact F]). rewrite zip_length; congruence.
Qed.
Lemma ldot_vsum (x : list K) (l : list (list K)) : l <> [] -> Forall (fun y => length y = length x) l -> ldot x (vsum l) = lsum (map (ldot x) l).
Proof.
  induction l as [|y l IH]; intros N F; [congruence|]. apply Forall_cons_iff in F. destruct F as [Hy F]. destruct l as [|z l]; [cbn; ring|]. rewrite vsum_cons by discriminate. rewrite ldot_zip; [|exact Hy|apply vsum_length; [discriminate|exact F]].
  rewrite IH by (discriminate || exact F). reflexivity.
Qed.
Lemma nth_zip (x y : list K) : forall i, length x = length y -> nth i (zip radd x y) 0 = nth i x 0 + nth i y 0.
Proof. revert y. induction x as [|a x IH]; intros [|b y] [|i] H; try discriminate; cbn; try ring. apply IH. cbn in H. lia. Qed.
Lemma nth_vsum n (l : list (list K)) i : l <> [] -> Forall (fun x => length x = n) l -> nth i (vsum l) 0 = lsum (map (fun x => nth i x 0) l).
Proof.
  induction l as [|x l IH]; intros N F; [congruence|]. apply Forall_cons_iff in F. destruct F as [Hx F]. destruct l as [|y l]; [cbn; ring|]. rewrite vsum_cons by discriminate. rewrite nth_zip; [|rewrite (vsum_length n) by (discriminate || exact F); exact Hx].
  rewrite IH by (discriminate || exact F). reflexivity.
Qed.
Lemma vsum_one {A} (f : A -> K) (l : list A) : l <> [] -> vsum (map (fun a => [f a]) l) = [lsum (map f l)].
Proof. induction l as [|a l IH]; intros N; [congruence|]. destruct l as [|b l]; [cbn; f_equal; ring|]. cbn [map]. rewrite vsum_cons by discriminate. cbn [map] in IH. rewrite IH by discriminate. reflexivity. Qed.
End Sums.

Section Ops.
Context {K : cring} {R : Type}.
Notation prog := (prog K R).
Lemma serve_allreduce c n (x : nat -> list K) ms : ms <> [] -> (forall m, In m ms -> length (x m) = n) -> serve c (map (fun m => QAllreduce (x m)) ms) = Some (map (fun _ => VArray (vsum (map x ms))) ms).
Proof.
  destruct ms as [|m ms]; intros N H; [congruence|]. unfold serve. cbn [map]. change (QAllreduce (x m) :: map (fun m => QAllreduce (x m)) ms) with (map (fun m => QAllreduce (x m)) (m :: ms)).
  change (_ :: map ?f (map (fun m => QAllreduce (x m)) ms)) with (map f (map (fun m => QAllreduce (x m)) (m :: ms))).
  rewrite map_map. rewrite (all_some_map _ x). { cbn [map]. rewrite !map_map. reflexivity. }
  intros m' Hm. rewrite (H m' Hm), (H m) by (left; reflexivity). rewrite Nat.eqb_refl. reflexivity.
Qed.
Lemma yields_allreduce c n (x : nat -> list K) : c_members c <> [] -> NoDup (c_members c) -> (forall m, In m (c_members c) -> length (x m) = n) ->
  yields (R := R) (c_members c) (fun m => allreduce c (x m)) (fun _ => vsum (map x (c_members c))).
Proof.
  intros N D H. apply (yields_call c (fun m => QAllreduce (x m)) (fun _ => VArray (vsum (map x (c_members c)))) (fun m v k => match v with VArray y => k y | _ => Stuck end)); [exact D|apply (serve_allreduce c n); assumption|]. apply yields_ret.
Qed.
Lemma yields_identity c n (x : nat -> list K) : c_members c <> [] -> NoDup (c_members c) -> (forall m, In m (c_members c) -> length (x m) = n) ->
  yields (R := R) (c_members c) (fun m => identity_transpose c (x m)) (fun _ => vsum (map x (c_members c))).
Proof.
  intros N D H. unfold identity_transpose. destruct (Nat.eqb_spec (length (c_members c)) 1) as [E|E]; [|apply (yields_allreduce c n); assumption].
  destruct (c_members c) as [|m [|m' l]]; try discriminate. apply (yields_ext _ (fun m k => k (x m)) _ x); [reflexivity| |apply yields_ret]. intros m' [<-|[]]. reflexivity.
Qed.
Lemma yields_combine c (x : nat -> K) : c_members c <> [] -> NoDup (c_members c) -> yields (R := R) (c_members c) (fun m => combine_p c (x m)) (fun _ => lsum (map x (c_members c))).
Proof.
  intros N D. unfold combine_p. apply (yields_bind _ (fun m => allreduce c [x m]) (fun _ => [lsum (map x (c_members c))])).
  - rewrite <- (vsum_one x) by exact N. apply (yields_allreduce c 1); [exact N|exact D|reflexivity].
  - apply yields_ret.
Qed.
Lemma all_some_id {A B} (f : A -> option B) (g : A -> B) m ms : (forall a, f a = Some (g a)) -> all_some (f m :: map f ms) = Some (map g (m :: ms)).
Proof. intros H. change (f m :: map f ms) with (map f (m :: ms)). apply all_some_map. intros a _. apply H. Qed.
Lemma yields_combine_shape c (s : nat -> shape) : c_members c <> [] -> NoDup (c_members c) -> yields (R := R) (c_members c) (fun m => combine_shape_p (K := K) c (s m)) (fun _ => combine_shape (map s (c_members c))).
Proof.
  intros N D. apply (yields_call c (fun m => QAllgather (s m)) (fun _ => VShapes (map s (c_members c))) (fun m v k => match v with VShapes l => k (combine_shape l) | _ => Stuck end)); [exact D| |apply yields_ret].
  destruct (c_members c) as [|m ms]; [congruence|]. unfold serve. cbn [map]. rewrite map_map. change (Some (s m) :: map (fun x => Some (s x)) ms) with (map (fun x => Some (s x)) (m :: ms)) || idtac.
  cbn [all_some]. rewrite (all_some_map _ s) by reflexivity. cbn [map]. rewrite map_map. reflexivity.
Qed.
(** mprint: all messages are equal, or not *)
Lemma yields_mprint c (msg : nat -> string) rank : NoDup (c_members c) -> c_members c <> [] -> (forall i m, nth_error (c_members c) i = Some m -> rank m = i) ->
  yields (R := R) (c_members c) (fun m => mprint (K := K) c (rank m) (msg m))
  (fun m => let ms := map msg (c_members c) in if rank m =? 0 then if forallb (fun m' => String.eqb m' (hd (msg m) ms)) ms then [(None, msg m)] else map (fun im => (Some (fst im), snd im)) (combine (seq 0 (length ms)) ms) else []).
Proof.
  intros D N Hr. destruct c as [id ms]. cbn [c_members] in *. destruct ms as [|m0 ms]; [congruence|].
  apply (yields_call (Comm id (m0 :: ms)) (fun m => QGather (msg m)) (fun m => VMessages (if rank m =? 0 then Some (map msg (m0 :: ms)) else None))
   (fun m v k => match v with VMessages l => if rank m =? 0 then match l with Some ms => if forallb (fun m' => String.eqb m' (hd (msg m) ms)) ms then k [(None, msg m)] else k (map (fun im => (Some (fst im), snd im)) (combine (seq 0 (length ms)) ms)) | None => Stuck end else k [] | _ => Stuck end)); [exact D| |].
  - unfold serve. cbn [c_members map]. rewrite map_map. cbn [all_some]. rewrite (all_some_map _ msg) by reflexivity. rewrite (Hr 0 m0) by reflexivity. cbn [Nat.eqb]. f_equal. f_equal. rewrite map_map. apply map_ext_in.
    intros m Hm. destruct (In_nth_error _ _ Hm) as (i & Hi). rewrite (Hr (S i) m) by exact Hi. reflexivity.
  - apply (yields_ext _ (fun m k => k (let ms' := map msg (m0 :: ms) in if rank m =? 0 then if forallb (fun m' => String.eqb m' (hd (msg m) ms')) ms' then [(None, msg m)] else map (fun im => (Some (fst im), snd im)) (combine (seq 0 (length ms')) ms') else [])) _
     (fun m => let ms' := map msg (m0 :: ms) in if rank m =? 0 then if forallb (fun m' => String.eqb m' (hd (msg m) ms')) ms' then [(None, msg m)] else map (fun im => (Some (fst im), snd im)) (combine (seq 0 (length ms')) ms') else [])); [|reflexivity|apply yields_ret].
    intros m k _. cbv zeta. cbn [c_members]. destruct (rank m =? 0); [|reflexivity]. destruct (forallb _ _); reflexivity.
Qed.

(** * Allgatherv *)
Lemma rows_length {A} (x : list A) rs sl : forall a n, (0 <= rs)%Z -> (0 <= a)%Z -> chain a n sl -> Z.of_nat (length x) = (n * rs)%Z -> map (fun y => Z.of_nat (length y)) (map (rows x rs) sl) = map (fun s => ((snd s - fst s) * rs)%Z) sl.
Proof.
  induction sl as [|[s e] sl IH]; intros a n Hrs Ha C Hx; [reflexivity|]. cbn [chain] in C. destruct C as (-> & Hse & C). pose proof (chain_le _ _ _ C) as Hen. cbn [map]. f_equal; [|apply (IH e n); [exact Hrs|lia|exact C|exact Hx]].
  unfold rows. cbn [fst snd]. rewrite firstn_length, skipn_length. assert (0 <= (e - a) * rs)%Z by nia. assert (0 <= a * rs)%Z by nia. assert (e * rs <= n * rs)%Z by nia. assert ((e - a) * rs = e * rs - a * rs)%Z by nia. lia.
Qed.
Lemma concat_inj {A} : forall l l' : list (list A), map (fun y => Z.of_nat (length y)) l = map (fun y => Z.of_nat (length y)) l' -> concat l = concat l' -> l = l'.
Proof.
  induction l as [|x l IH]; intros [|y l'] H E; try discriminate; [reflexivity|]. cbn in H, E. injection H as H0 H. assert (L : length x = length y) by lia.
  assert (Ex : x = y). { apply (f_equal (firstn (length x))) in E. rewrite firstn_app, Nat.sub_diag, firstn_O, app_nil_r, firstn_all in E. rewrite L, firstn_app, Nat.sub_diag, firstn_O, app_nil_r, firstn_all in E. exact E. }
  subst y. f_equal. apply IH; [exact H|]. apply app_inv_head in E. exact E.
Qed.
Lemma concat_length_Z {A} (l : list (list A)) : Z.of_nat (length (concat l)) = fold_right Z.add 0%Z (map (fun y => Z.of_nat (length y)) l).
Proof. induction l as [|x l IH]; [reflexivity|]. cbn [concat map fold_right]. rewrite app_length, Nat2Z.inj_add, IH. reflexivity. Qed.
Lemma chain_sum rs sl : forall a n, chain a n sl -> fold_right Z.add 0%Z (map (fun s => ((snd s - fst s) * rs)%Z) sl) = ((n - a) * rs)%Z.
Proof. induction sl as [|[s e] sl IH]; intros a n C; cbn [chain] in C; [subst; cbn; lia|]. destruct C as (-> & _ & C). cbn [map fold_right fst snd]. rewrite (IH e n C). lia. Qed.
Lemma gather_ok {A} n tl P (y : nat -> list A) out : (0 <= n)%Z -> 0 < P -> Forall (fun d => (0 <= d)%Z) tl -> (forall r, r < P -> Z.of_nat (length (y r)) = (work n (Z.of_nat P) (Z.of_nat r) * zprod tl)%Z) -> Z.of_nat (length out) = (n * zprod tl)%Z ->
  SplitModel.global_transpose (n :: tl) (Z.of_nat P) (map y (seq 0 P)) out = Ok (concat (map y (seq 0 P))).
Proof.
  intros Hn HP Ht Hy Ho. pose proof (zprod_nonneg tl Ht) as Hz. set (x := concat (map y (seq 0 P))). assert (C := split_all_chain n (Z.of_nat P) Hn ltac:(lia)).
  assert (Ly : map (fun v => Z.of_nat (length v)) (map y (seq 0 P)) = map (fun s => ((snd s - fst s) * zprod tl)%Z) (split_all n (Z.of_nat P))).
  { rewrite split_all_map by lia. rewrite Nat2Z.id, !map_map. apply map_ext_in. intros r Hr. apply in_seq in Hr. cbn [fst snd]. rewrite Hy by lia. f_equal. lia. }
  assert (Lx : Z.of_nat (length x) = (n * zprod tl)%Z). { unfold x. rewrite concat_length_Z, Ly, (chain_sum _ _ 0 n C). lia. }
  destruct (distribute_gather n tl (Z.of_nat P) x out Hn ltac:(lia) Ht Lx ltac:(lia)) as (locals & HL & HG & HC).
  assert (locals = map y (seq 0 P)) as ->; [|exact HG].
  apply concat_inj; [|rewrite HC; reflexivity]. rewrite Ly.
  assert (E : rmap (fun r => global_direct (n :: tl) (Z.of_nat P) (Z.of_nat r) x) (seq 0 (Z.to_nat (Z.of_nat P))) = Ok (map (rows x (zprod tl)) (split_all n (Z.of_nat P)))).
  { rewrite split_all_map by lia. rewrite map_map. rewrite <- rmap_ok. apply rmap_ext. intros r Hr. unfold global_direct, split_rank. destruct (Z.eqb_spec (Z.of_nat P) 0); [lia|]. cbn [rbind]. reflexivity. }
  rewrite E in HL. injection HL as <-. apply (rows_length x (zprod tl) _ 0%Z n); [exact Hz|lia|exact C|exact Lx].
Qed.
Lemma direct_ok {A} n tl P (x : list A) : (0 <= n)%Z -> 0 < P -> Forall (fun d => (0 <= d)%Z) tl -> Z.of_nat (length x) = (n * zprod tl)%Z ->
  exists ls, rmap (fun r => global_direct (n :: tl) (Z.of_nat P) (Z.of_nat r) x) (seq 0 P) = Ok ls /\ concat ls = x /\ map (fun v => Z.of_nat (length v)) ls = map (fun r => (work n (Z.of_nat P) (Z.of_nat r) * zprod tl)%Z) (seq 0 P).
Proof.
  intros Hn HP Ht Lx. pose proof (zprod_nonneg tl Ht) as Hz. assert (C := split_all_chain n (Z.of_nat P) Hn ltac:(lia)). destruct (distribute_gather n tl (Z.of_nat P) x x Hn ltac:(lia) Ht Lx eq_refl) as (ls & HL & _ & HC).
  rewrite Nat2Z.id in HL. exists ls. split; [exact HL|]. split; [exact HC|].
  assert (E : rmap (fun r => global_direct (n :: tl) (Z.of_nat P) (Z.of_nat r) x) (seq 0 P) = Ok (map (rows x (zprod tl)) (split_all n (Z.of_nat P)))).
  { rewrite split_all_map by lia. rewrite map_map, Nat2Z.id. rewrite <- rmap_ok. apply rmap_ext. intros r Hr. unfold global_direct, split_rank. destruct (Z.eqb_spec (Z.of_nat P) 0); [lia|]. cbn [rbind]. reflexivity. }
  rewrite E in HL. injection HL as <-. rewrite (rows_length x (zprod tl) _ 0%Z n) by (assumption || lia). rewrite split_all_map by lia. rewrite Nat2Z.id, map_map. apply map_ext. intros r. cbn [fst snd]. f_equal. lia.
Qed.
Lemma zprod_cons a l : zprod (a :: l) = (a * zprod l)%Z.
Proof. unfold zprod. cbn [fold_left]. rewrite Z.mul_1_l. assert (G : forall l b, fold_left Z.mul l b = (b * fold_left Z.mul l 1)%Z); [|apply G]. clear. induction l as [|x l IH]; intros b; cbn [fold_left]; [lia|]. rewrite IH, (IH (1 * x)%Z). lia. Qed.
Lemma map_repeat {A B} (b : B) (l : list A) : map (fun _ => b) l = repeat b (length l).
Proof. induction l as [|a l IH]; [reflexivity|]. cbn. f_equal. exact IH. Qed.
Lemma repeat_seq {A} (a : A) n : repeat a n = map (fun _ => a) (seq 0 n).
Proof. rewrite map_repeat, seq_length. reflexivity. Qed.
Lemma yields_gather P n tl (y out : nat -> list K) : (0 <= n)%Z -> 0 < P -> Forall (fun d => (0 <= d)%Z) tl -> (forall r, r < P -> Z.of_nat (length (y r)) = (work n (Z.of_nat P) (Z.of_nat r) * zprod tl)%Z) -> (forall r, r < P -> Z.of_nat (length (out r)) = (n * zprod tl)%Z) ->
  yields (R := R) (seq 0 P) (fun m => global_transpose (world P) (n :: tl) true (y m) (out m)) (fun _ => Ok (concat (map y (seq 0 P)))).
Proof.
  intros Hn HP Ht Hy Ho. unfold global_transpose. cbn [world c_members]. rewrite seq_length. pose proof (fun m (Hm : m < P) => gather_ok n tl P y (out m) Hn HP Ht Hy (Ho m Hm)) as G. unfold SplitModel.global_transpose in G.
  destruct (global_counts_offsets (n :: tl) (Z.of_nat P)) as [[cs os]|] eqn:E; [|exfalso; specialize (G 0 HP); discriminate]. cbn [rbind fst snd] in *.
  apply (yields_call (world P) (fun m => QAllgatherv (y m) cs os (out m)) (fun _ => VArray (concat (map y (seq 0 P)))) (fun m v k => match v with VArray y => k (Ok y) | _ => Stuck end)); [apply seq_NoDup| |apply yields_ret].
  cbn [world c_members]. assert (Hin : forall m, In m (seq 0 P) -> m < P) by (intros m Hm; apply in_seq in Hm; lia). destruct P as [|P]; [lia|].
  assert (S1 : all_some (map (fun q => match q with QAllgatherv y _ _ _ => Some y | _ => None end) (map (fun m => QAllgatherv (y m) cs os (out m)) (seq 0 (S P)))) = Some (map y (seq 0 (S P)))) by (rewrite map_map; apply all_some_map; reflexivity).
  unfold serve. cbn [seq map] in S1 |- *. rewrite S1. change (y 0 :: map y (seq 1 P)) with (map y (seq 0 (S P))).
  change (QAllgatherv (y 0) cs os (out 0) :: map (fun m => QAllgatherv (y m) cs os (out m)) (seq 1 P)) with (map (fun m => QAllgatherv (y m) cs os (out m)) (seq 0 (S P))).
  change (?f (QAllgatherv (y 0) cs os (out 0)) :: map ?f (map (fun m => QAllgatherv (y m) cs os (out m)) (seq 1 P))) with (map f (map (fun m => QAllgatherv (y m) cs os (out m)) (seq 0 (S P)))) || idtac.
  match goal with |- all_some ?l = _ => change l with (map (fun q => match q with QAllgatherv _ counts offsets out => match allgatherv (map y (seq 0 (S P))) counts offsets out with Ok y => Some (VArray y) | Raise _ => None end | _ => None end) (map (fun m => QAllgatherv (y m) cs os (out m)) (seq 0 (S P)))) end.
  rewrite map_map. change (VArray (concat (map y (seq 0 (S P)))) :: map (fun _ => VArray (concat (map y (seq 0 (S P))))) (seq 1 P)) with (map (fun _ : nat => VArray (K := K) (concat (map y (seq 0 (S P))))) (seq 0 (S P))). apply all_some_map.
  intros m Hm. cbv beta. rewrite (G m (Hin m Hm)). reflexivity.
Qed.

(** * filter_comm *)
Lemma serve_split c (condition : nat -> bool) : c_members c <> [] -> serve (K := K) c (map (fun m => QSplit (if condition m then 1 else 0)) (c_members c)) = Some (map (fun m => VComm (group c condition (condition m))) (c_members c)).
Proof.
  intros N. unfold serve. destruct c as [id ms]. cbn [c_members c_id] in *. destruct ms as [|m ms]; [congruence|]. cbn [map]. rewrite map_map. cbn [all_some]. rewrite (all_some_map _ (fun m => if condition m then 1 else 0)) by reflexivity.
  set (l := (if condition m then 1 else 0) :: map (fun m => if condition m then 1 else 0) ms). assert (El : l = map (fun m => if condition m then 1 else 0) (m :: ms)) by reflexivity.
  assert (F : forall b, map fst (filter (fun p => snd p =? (if condition b then 1 else 0)) (combine (m :: ms) l)) = filter (fun m => Bool.eqb (condition m) (condition b)) (m :: ms)).
  { intros b. rewrite El. clear. generalize (m :: ms). intros q. induction q as [|e q IH]; [reflexivity|]. cbn [map combine filter snd]. destruct (condition e), (condition b); cbn [Nat.eqb Bool.eqb map fst]; rewrite IH; reflexivity. }
  assert (M : forall f : nat -> value (K := K), map f l = map (fun e => f (if condition e then 1 else 0)) (m :: ms)) by (intros f; rewrite El, map_map; reflexivity).
  f_equal. rewrite M. transitivity (map (fun e => VComm (K := K) (group (Comm id (m :: ms)) condition (condition e))) (m :: ms)); [|reflexivity]. apply map_ext. intros e. unfold group. cbn [c_id c_members]. rewrite <- F. reflexivity.
Qed.
Lemma serve_free c ms : ms <> [] -> serve (K := K) c (map (fun _ : nat => QFree) ms) = Some (map (fun _ => VNone) ms).
Proof.
  intros N. destruct ms as [|m ms]; [congruence|]. unfold serve. cbn [map]. assert (forallb (fun q => match q with QFree => true | _ => false end) (map (fun _ : nat => QFree (K := K)) ms) = true) as H by (clear; induction ms as [|e ms IH]; [reflexivity|exact IH]).
  cbn [forallb]. rewrite H. cbn [andb]. rewrite map_map. reflexivity.
Qed.
Lemma yields_free {A} c (r : nat -> A) : NoDup (c_members c) -> yields (R := R) (c_members c) (fun m k => Call (K := K) c QFree (fun _ => k (r m))) r.
Proof.
  intros D. destruct (c_members c) as [|m ms] eqn:E; [apply yields_nil|]. rewrite <- E in *. apply (yields_call c (fun _ => QFree) (fun _ => VNone) (fun m v k => k (r m))); [exact D|apply serve_free; rewrite E; discriminate|apply yields_ret].
Qed.
Lemma filter_all c (condition : nat -> bool) m : In m (filter (fun m => Bool.eqb (condition m) true) (c_members c) ++ filter (fun m => Bool.eqb (condition m) false) (c_members c)) <-> In m (c_members c).
Proof. rewrite in_app_iff, !filter_In. destruct (condition m); cbn; intuition congruence. Qed.
Lemma yields_filter {A} c (condition : nat -> bool) (body : nat -> option comm -> (result A -> prog) -> prog) (r : nat -> A) : c_members c <> [] -> NoDup (c_members c) ->
  yields (c_members (group c condition true)) (fun m => body m (Some (group c condition true))) (fun m => Ok (r m)) ->
  yields (c_members (group c condition false)) (fun m => body m None) (fun m => Ok (r m)) ->
  yields (c_members c) (fun m => filter_comm c (condition m) (body m)) (fun m => Ok (r m)).
Proof.
  intros N D Ht Hf. unfold filter_comm.
  apply (yields_call c (fun m => QSplit (if condition m then 1 else 0)) (fun m => VComm (group c condition (condition m)))
    (fun m v k => match v with VComm new => body m (if condition m then Some new else None) (fun r => match r with Ok a => Call new QFree (fun _ => k (Ok a)) | Raise e => k (Raise e) end) | _ => Stuck end)); [exact D|apply serve_split, N|].
  apply (yields_in (c_members (group c condition true) ++ c_members (group c condition false))); [intros m; apply filter_all|].
  assert (G : forall b, yields (R := R) (c_members (group c condition b)) (fun m => body m (if b then Some (group c condition b) else None)) (fun m => Ok (r m)) ->
    yields (c_members (group c condition b)) (fun m k => body m (if condition m then Some (group c condition (condition m)) else None) (fun r => match r with Ok a => Call (group c condition (condition m)) QFree (fun _ => k (Ok a)) | Raise e => k (Raise e) end)) (fun m => Ok (r m))).
  { intros b H. apply (yields_ext _ (fun m k => body m (if b then Some (group c condition b) else None) (fun r => match r with Ok a => Call (group c condition b) QFree (fun _ => k (Ok a)) | Raise e => k (Raise e) end)) _ (fun m => Ok (r m))); [|reflexivity|].
    - intros m k Hm. unfold group in Hm. cbn [c_members] in Hm. apply filter_In in Hm. destruct Hm as [_ Hm]. apply Bool.eqb_prop in Hm. rewrite Hm. reflexivity.
    - apply (yields_bind _ (fun m => body m (if b then Some (group c condition b) else None)) (fun m => Ok (r m))); [exact H|]. apply (yields_free (group c condition b) (fun m => Ok (r m))). apply NoDup_filter, D. }
  apply yields_app; [|exact (G true Ht)|exact (G false Hf)]. intros m H1 H2. unfold group in *. cbn [c_members] in *. apply filter_In in H1, H2. destruct H1 as [_ H1], H2 as [_ H2]. apply Bool.eqb_prop in H1, H2. congruence.
Qed.
End Ops.
