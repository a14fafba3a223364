From Verif Require Import Base Algebra BlockModel BlockSpec BlockProofs DiagModel ShapeModel ShapeSpec ShapeProofs ShapeCompose RedModel RedProofs TodModel TodSpec.

Lemma nth_map_seq {A} (g : nat -> A) n k d : k < n -> nth k (map g (seq 0 n)) d = g k.
Proof. intros H. rewrite (nth_indep _ d (g 0)) by (rewrite map_length, seq_length; exact H). rewrite map_nth, seq_nth by exact H. reflexivity. Qed.

Section Todense.
Context {K : cring}.
Add Ring KringT : (rth K).
Lemma put_length {A} (l : list A) i v : length (put l i v) = length l.
Proof. revert i. induction l as [|a l IH]; intros [|i]; cbn; auto. Qed.
Lemma nth_put {A} (l : list A) i v k d : k < length l -> nth k (put l i v) d = if Nat.eqb k i then v else nth k l d.
Proof. revert i k. induction l as [|a l IH]; intros [|i] [|k] H; cbn in *; try lia; auto. rewrite IH by lia. reflexivity. Qed.
Lemma nth_unit n i k : k < n -> nth k (unit_vector n i) 0%cr = (if Nat.eqb k i then 1 else 0 : K)%cr.
Proof. intros H. unfold unit_vector. apply (nth_map_seq (fun k => if Nat.eqb k i then 1 else 0 : K)%cr n k 0%cr H). Qed.
Lemma unit_length n i : length (unit_vector (K := K) n i) = n. Proof. unfold unit_vector. rewrite map_length, seq_length. reflexivity. Qed.
Lemma set_one n i : put (repeat (r0 : K) n) i r1 = unit_vector n i.
Proof.
  apply nth_ext with (d := 0%cr) (d' := 0%cr); [rewrite put_length, repeat_length, unit_length; reflexivity|]. intros k H. rewrite put_length, repeat_length in H.
  rewrite nth_put by (rewrite repeat_length; exact H). rewrite nth_unit by exact H. destruct (Nat.eqb k i); [reflexivity|]. apply nth_repeat.
Qed.
Lemma set_zero n i : put (unit_vector (K := K) n i) i r0 = repeat r0 n.
Proof.
  apply nth_ext with (d := 0%cr) (d' := 0%cr); [rewrite put_length, repeat_length, unit_length; reflexivity|]. intros k H. rewrite put_length, unit_length in H.
  rewrite nth_put by (rewrite unit_length; exact H). rewrite nth_unit, nth_repeat by exact H. destruct (Nat.eqb k i); reflexivity.
Qed.
Context (op : mop K) (si so : list nat) (F : list K -> list K) (C : computes op si so F).
Lemma fill_rows_ok old is_ : (forall i, length (old i) = prod so) -> fill_rows op si so old is_ (repeat r0 (prod si)) = map (fun i => map (p_cast op) (F (unit_vector (prod si) i))) is_.
Proof.
  intros L. destruct C as (_ & C2 & _). induction is_ as [|i is_ IH]; [reflexivity|]. cbn [fill_rows map]. rewrite set_one, C2 by (auto; apply unit_length). rewrite set_zero, IH. reflexivity.
Qed.
Lemma copy_rows_ok is_ : forall o, length o = prod so -> copy_rows op si so is_ (repeat r0 (prod si)) o = map (fun i => map (p_cast op) (F (unit_vector (prod si) i))) is_.
Proof.
  destruct C as (C1 & C2 & _). induction is_ as [|i is_ IH]; intros o L; [reflexivity|]. cbn [copy_rows map]. rewrite set_one, C2 by (auto; apply unit_length). rewrite set_zero, IH; [reflexivity|].
  rewrite map_length. apply C1, unit_length.
Qed.
Lemma inplace_rows_ok is_ : p_inplace op = true -> forall u, length u = Nat.max (prod si) (prod so) -> inplace_rows op si so is_ u = map (fun i => map (p_cast op) (F (unit_vector (prod si) i))) is_.
Proof.
  intros E. destruct C as (_ & _ & C3). specialize (C3 E). induction is_ as [|i is_ IH]; intros u L; [reflexivity|]. cbn [inplace_rows map].
  set (w := put (repeat r0 (prod si)) i r1 ++ skipn (prod si) u). assert (length w = Nat.max (prod si) (prod so)) as Lw by (unfold w; rewrite app_length, put_length, repeat_length, skipn_length; lia).
  destruct (C3 w Lw) as [La Fa]. rewrite IH by (rewrite map_length; congruence). f_equal. rewrite firstn_map, Fa. do 2 f_equal. unfold w. rewrite set_one, firstn_app, unit_length, Nat.sub_diag. cbn [firstn].
  rewrite app_nil_r. apply firstn_all2. rewrite unit_length. reflexivity.
Qed.
Lemma todense_ok a b inplace junk junk_o junk_u : validate_shapes (p_shapes op) a b = Ok (Some si, Some so) ->
  (forall i, length (junk i) = prod so) -> length junk_o = prod so -> length junk_u = Nat.max (prod si) (prod so) ->
  todense op a b inplace junk junk_o junk_u = Ok (prod so, prod si, map (fun i => map (p_cast op) (F (unit_vector (prod si) i))) (seq 0 (prod si))).
Proof.
  intros V L1 L2 L3. unfold todense. rewrite V. cbn [rbind]. do 2 f_equal. destruct inplace; [destruct (p_inplace op) eqn:E|]; cbn [negb orb].
  - apply inplace_rows_ok; assumption.
  - destruct (p_aligned_output op); cbn [negb]; [apply copy_rows_ok|apply fill_rows_ok]; assumption.
  - destruct (p_aligned_output op); cbn [negb]; [apply copy_rows_ok|apply fill_rows_ok]; assumption.
Qed.
Lemma entry_ok j i : i < prod si -> j < prod so -> entry (map (fun i => map (p_cast op) (F (unit_vector (prod si) i))) (seq 0 (prod si))) j i = p_cast op (nth j (F (unit_vector (prod si) i)) 0%cr).
Proof.
  intros Hi Hj. unfold entry. set (g := fun i => map (p_cast op) (F (unit_vector (prod si) i))). rewrite (nth_map_seq g) by exact Hi.
  unfold g. assert (length (F (unit_vector (prod si) i)) = prod so) as L by (apply C, unit_length). rewrite (nth_indep _ _ (p_cast op 0%cr)) by (rewrite map_length, L; exact Hj). apply map_nth.
Qed.
End Todense.

Section Linear.
Context {K : cring}.
Add Ring KringL : (rth K).
Lemma vsum_length (x y : list K) : length x = length y -> length (vsum x y) = length x.
Proof. intros L. unfold vsum. rewrite map_length, combine_length. lia. Qed.
Lemma nth_vsum (x y : list K) k : length x = length y -> k < length x -> nth k (vsum x y) 0%cr = (nth k x 0 + nth k y 0)%cr.
Proof.
  revert y k. induction x as [|a x IH]; intros [|b y] [|k] L H; cbn in *; try lia; [reflexivity|]. apply IH; lia.
Qed.
Lemma nth_vscale c (x : list K) k : k < length x -> nth k (vscale c x) 0%cr = (c * nth k x 0)%cr.
Proof. intros H. unfold vscale. rewrite (nth_indep _ _ (c * 0)%cr) by (rewrite map_length; exact H). apply (map_nth (rmul c)). Qed.
Lemma vscale_length c (x : list K) : length (vscale c x) = length x. Proof. apply map_length. Qed.
Lemma prefix_step (x : list K) k n : length x = n -> k < n ->
  map (fun i => if i <? S k then nth i x 0%cr else 0%cr) (seq 0 n) = vsum (map (fun i => if i <? k then nth i x 0%cr else 0%cr) (seq 0 n)) (vscale (nth k x 0%cr) (unit_vector n k)).
Proof.
  intros L H. apply nth_ext with (d := 0%cr) (d' := 0%cr).
  - rewrite vsum_length; rewrite ?vscale_length, ?unit_length, !map_length, ?seq_length; reflexivity.
  - intros i Hi. rewrite map_length, seq_length in Hi. rewrite nth_vsum; rewrite ?vscale_length, ?unit_length, ?map_length, ?seq_length; auto.
    rewrite nth_vscale, nth_unit by (rewrite ?unit_length; exact Hi).
    rewrite !nth_map_seq by exact Hi. destruct (Nat.ltb_spec i (S k)), (Nat.ltb_spec i k), (Nat.eqb_spec i k); try lia; subst; ring.
Qed.
Lemma linear_matrix n m (F : list K -> list K) : is_linear n F -> (forall v, length v = n -> length (F v) = m) -> forall x j, length x = n -> j < m ->
  nth j (F x) 0%cr = sum n (fun i => (nth j (F (unit_vector n i)) 0 * nth i x 0)%cr).
Proof.
  intros [A S] L x j Lx Hj.
  assert (forall k, k <= n -> nth j (F (map (fun i => if i <? k then nth i x 0%cr else 0%cr) (seq 0 n))) 0%cr = sum k (fun i => (nth j (F (unit_vector n i)) 0 * nth i x 0)%cr)) as H.
  { induction k as [|k IH]; intros Hk.
    - set (z := map _ _). assert (length z = n) as Lz by (unfold z; rewrite map_length, seq_length; reflexivity). assert (z = vscale 0%cr z) as E.
      { apply nth_ext with (d := 0%cr) (d' := 0%cr); [rewrite vscale_length; reflexivity|]. intros i Hi. rewrite nth_vscale by exact Hi. rewrite Lz in Hi. unfold z. rewrite nth_map_seq by exact Hi. cbn. ring. }
      rewrite E, S by exact Lz. rewrite nth_vscale by (rewrite L; auto). cbn [sum]. ring.
    - rewrite (prefix_step x k n Lx) by lia. rewrite A by (rewrite ?vscale_length, ?unit_length, ?map_length, ?seq_length; reflexivity). rewrite S by apply unit_length.
      rewrite nth_vsum; [|rewrite vscale_length, !L; rewrite ?unit_length, ?map_length, ?seq_length; reflexivity|rewrite L; [exact Hj|rewrite map_length, seq_length; reflexivity]].
      rewrite nth_vscale by (rewrite L; [exact Hj|apply unit_length]). rewrite IH by lia. rewrite sum_S. ring. }
  specialize (H n (Nat.le_refl n)). rewrite <- H. do 2 f_equal. apply nth_ext with (d := 0%cr) (d' := 0%cr); [rewrite map_length, seq_length; exact Lx|]. intros i Hi. rewrite Lx in Hi.
  rewrite nth_map_seq by exact Hi. destruct (Nat.ltb_spec i n); [reflexivity|lia].
Qed.
Lemma ldot_sum (x y : list K) : length x = length y -> ldot x y = sum (length x) (fun k => (nth k x 0 * nth k y 0)%cr).
Proof.
  revert y. induction x as [|a x IH]; intros [|b y] L; cbn in L; try discriminate; [reflexivity|]. unfold ldot in *. cbn [combine map]. rewrite lsum_cons. cbn [length]. rewrite sum_S_l. cbn [nth fst snd]. f_equal.
  apply IH. lia.
Qed.
Lemma ldot_unit_l n i (y : list K) : i < n -> length y = n -> ldot (unit_vector n i) y = nth i y 0%cr.
Proof.
  intros Hi L. rewrite ldot_sum by (rewrite unit_length; auto). rewrite unit_length, (sum_single n (fun k => (nth k (unit_vector n i) 0 * nth k y 0)%cr) i Hi).
  - rewrite nth_unit, Nat.eqb_refl by exact Hi. ring.
  - intros k Hk N. rewrite nth_unit by exact Hk. destruct (Nat.eqb_spec k i); [contradiction|ring].
Qed.
Lemma ldot_unit_r n i (y : list K) : length y = n -> i < n -> ldot y (unit_vector n i) = nth i y 0%cr.
Proof. intros L Hi. rewrite ldot_comm. apply ldot_unit_l; assumption. Qed.
(** the elements of an array and of the basis arrays *)
Lemma nth_ravel {A} (x : array A) idx d : inside (ashape x) idx -> nth (flat (ashape x) idx) (ravel x) d = aval x idx.
Proof.
  intros I. unfold ravel. rewrite indices_unflat, map_map. set (g := fun k => aval x (unflat (ashape x) k)). pose proof (flat_lt _ _ I) as H.
  rewrite (nth_map_seq g) by exact H. unfold g. rewrite unflat_flat by exact I. reflexivity.
Qed.
Lemma ravel_basis s idx : inside s idx -> ravel (Arr s (fun i => if shape_eqb i idx then r1 else r0 : K)) = unit_vector (prod s) (flat s idx).
Proof.
  intros I. unfold ravel, unit_vector. cbn [ashape aval]. rewrite indices_unflat, map_map. apply map_ext_in. intros k Hk. apply in_seq in Hk.
  unfold shape_eqb. destruct (list_eq_dec Nat.eq_dec (unflat s k) idx) as [E|E]; destruct (Nat.eqb_spec k (flat s idx)) as [E'|E']; auto.
  - exfalso. apply E'. rewrite <- E, flat_unflat by lia. reflexivity.
  - exfalso. apply E. rewrite E'. apply unflat_flat, I.
Qed.
End Linear.

Lemma enough_ok op a b si so : admits op si so -> enough op a b si so -> validate_shapes op a b = Ok (Some si, Some so).
Proof.
  intros (V1 & V2 & L1 & L2) [Ha Hb]. unfold validate_shapes.
  destruct Ha as [->|[-> Ha]], Hb as [->|[-> Hb]]; cbn [validate]; rewrite ?V1, ?V2; cbn [rbind].
  - destruct (kind_out op) eqn:Ko, (kind_in op) eqn:Ki; rewrite ?L1, ?L2; cbn [rbind validate]; rewrite ?L1, ?L2; cbn [rbind validate]; rewrite ?V1, ?V2; cbn [rbind conflict]; rewrite ?ShapeProofs.eqb_refl; reflexivity.
  - destruct (kind_out op) eqn:Ko, (kind_in op) eqn:Ki; try (destruct Hb as [Hb|[Hb _]]; discriminate); rewrite ?L1, ?L2; cbn [rbind validate]; rewrite ?L1, ?L2; cbn [rbind validate]; rewrite ?V1, ?V2; cbn [rbind conflict]; rewrite ?ShapeProofs.eqb_refl; reflexivity.
  - destruct (kind_out op) eqn:Ko, (kind_in op) eqn:Ki; try (destruct Ha as [Ha|[Ha _]]; discriminate); rewrite ?L1, ?L2; cbn [rbind validate]; rewrite ?L1, ?L2; cbn [rbind validate]; rewrite ?V1, ?V2; cbn [rbind conflict]; rewrite ?ShapeProofs.eqb_refl; reflexivity.
  - destruct Ha as [Ha|[_ Ha]]; [|discriminate]. destruct Hb as [Hb|[_ Hb]]; [|discriminate]. rewrite Ha, Hb in *. rewrite L1, L2. reflexivity.
Qed.
Lemma unknown op : kind_in op <> Explicit -> validate_shapes op None None = Ok (None, match kind_out op with Explicit => o_out op | _ => None end).
Proof.
  intros N. unfold validate_shapes. cbn [validate rbind]. destruct (kind_in op); [congruence|..]; destruct (kind_out op); reflexivity.
Qed.
