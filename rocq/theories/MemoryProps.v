(** Property theorems C03, C04, C05, C06. *)
From Verif Require Import Base MemoryModel MemorySpec MemoryProofs.
Open Scope Z_scope.

(** C03 (first half): whatever the history, and without any hypothesis on what users add, the entries of the pool have
    pairwise different addresses and are sorted by size. *)
Theorem C03_pool_invariant : forall c ops,
  pool_inv (s_pool (run c ops init)).
Proof. exact (fun c ops => run_inv c ops init pool_inv_nil). Qed.
Print Assumptions C03_pool_invariant.

(** C03 (second half): if arrays given to the pool and blocks obtained from the system do not overlap memory already
    in the pool or handed out, then all memory in the pool or handed out is pairwise disjoint, and no buffer that is
    handed out is in the pool. *)
Theorem C03_no_sharing : forall c ops, wf_config c -> ops_fresh c ops init ->
  let s := run c ops init in
  all_disjoint (s_pool s ++ s_out s) /\ NoDup (map a_addr (s_pool s ++ s_out s))
  /\ (forall v, In v (s_out s) -> contains v (s_pool s) = false).
Proof. exact history_safe. Qed.
Print Assumptions C03_no_sharing.

Definition ex_config : config := {| alignment := 32; tol_num := 12; tol_den := 10 |}.
Definition ex_req (n : Z) : req := {| r_shape := [n]; r_item := 8; r_aligned := true; r_contig := true |}.
Definition ex_user : arr := {| a_addr := 1000; a_shape := [4]; a_item := 8; a_contig := true; a_lo := 1000; a_hi := 1032 |}.
Definition ex_ops : list op :=
  [Add ex_user; Extract (ex_req 4) 5000; Extract (ex_req 4) 6001; GiveBack 1; Extract (ex_req 3) 7000; Remove ex_user; GiveBack 0].

Example C03_witness :
  map a_addr (s_pool (run ex_config ex_ops init)) = [7008; 5024] /\ map a_addr (s_out (run ex_config ex_ops init)) = [6016]
  /\ wf_config ex_config /\ ops_fresh ex_config ex_ops init.
Proof.
  split; [reflexivity|]. split; [reflexivity|]. split; [reflexivity|].
  unfold ex_ops. cbn [ops_fresh op_fresh]. unfold wf_arr, wf_req, disjoint, disjoint_spans. vm_compute.
  repeat match goal with
         | |- _ /\ _ => split
         | |- Forall _ _ => constructor
         | |- _ \/ _ => first [left; discriminate | right; discriminate | left; reflexivity]
         | |- _ => first [exact I | discriminate | reflexivity | intros _]
         end.
Qed.

(** C04: the buffer returned by extract.  Either it is new, the pool is untouched and no entry was compatible; or it is
    the smallest compatible entry, removed from the pool, within the tolerance.  In both cases the view handed to the
    caller has the requested shape, item size, alignment and contiguity, and lies within the buffer.  (numpy does not
    align arrays of zero bytes: alignment is claimed for requests of at least one byte.) *)
Theorem C04_extract_meets_request : forall c r m p, wf_config c -> wf_req r -> pool_inv p ->
  let '(b, q, fresh) := extract c r m p in
  (if fresh
   then q = p /\ b = empty c (r_shape r) (r_item r) m
        /\ Forall (fun b' => iscompatible c b' r (Some (tol_num c, tol_den c)) = false) p
   else exists l1 l2, p = l1 ++ b :: l2 /\ q = l1 ++ l2
        /\ iscompatible c b r (Some (tol_num c, tol_den c)) = true
        /\ (forall b', In b' p -> iscompatible c b' r (Some (tol_num c, tol_den c)) = true -> nbytes b <= nbytes b')
        /\ (a_contig b = true -> nbytes b * tol_den c <= tol_num c * r_nbytes r)
        /\ (a_contig b = false -> nbytes b = r_nbytes r))
  /\ exists v, view b (r_shape r) (r_item r) = Ok v
      /\ (r_nbytes r <> 0 \/ r_aligned r = false -> meets c r v)
      /\ a_addr v = a_addr b /\ nbytes v = r_nbytes r /\ nbytes v <= nbytes b.
Proof. exact extract_spec. Qed.
Print Assumptions C04_extract_meets_request.

(** C04: what compatibility means, independently of the code of iscompatible. *)
Theorem C04_compatible_facts : forall c a r tol, iscompatible c a r tol = true ->
  (r_aligned r = true -> a_addr a mod alignment c = 0)
  /\ (r_contig r = true -> a_contig a = true)
  /\ (if a_contig a then 0 <> r_nbytes r /\ r_nbytes r <= nbytes a
        /\ match tol with None => True | Some (n, d) => nbytes a * d <= n * r_nbytes r end
      else a_shape a = r_shape r /\ a_item a = r_item r).
Proof. exact iscompatible_facts. Qed.
Print Assumptions C04_compatible_facts.

Example C04_witness :
  let p := [ {| a_addr := 64; a_shape := [40]; a_item := 1; a_contig := true; a_lo := 64; a_hi := 104 |};
             {| a_addr := 128; a_shape := [48]; a_item := 1; a_contig := true; a_lo := 128; a_hi := 176 |} ] in
  pool_inv p /\ wf_req (ex_req 5)
  /\ fst (fst (extract ex_config (ex_req 5) 9 p)) = nth 0 p ex_user
  /\ snd (extract ex_config (ex_req 7) 9 p) = true.
Proof.
  cbn. split; [|split; [|split; reflexivity]].
  - split; [|split]; repeat constructor; cbn; try lia; intuition discriminate.
  - split; cbn; [lia|]. repeat constructor. lia.
Qed.

(** C05: an array returned by empty lies in the block obtained from the system, and is aligned. *)
Theorem C05_empty_aligned : forall c shape item m, wf_config c -> 0 < item -> Forall (fun d => 0 <= d) shape ->
  let a := empty c shape item m in
  a_shape a = shape /\ a_item a = item /\ a_contig a = true
  /\ (nbytes a <> 0 -> a_addr a mod alignment c = 0)
  /\ (let '(lo, hi) := empty_block c shape item m in lo <= a_addr a /\ a_addr a + nbytes a <= hi
        /\ (nbytes a <> 0 -> hi = lo + nbytes a + alignment c)).
Proof. exact empty_spec. Qed.
Print Assumptions C05_empty_aligned.

Example C05_witness : a_addr (empty ex_config [3; 2] 8 4001) = 4032 /\ empty_block ex_config [3; 2] 8 4001 = (4001, 4081).
Proof. split; reflexivity. Qed.

(** C06: a properly nested use of the contexts that ends normally leaves in the pool the entries that were there, plus
    exactly the buffers that had to be allocated. *)
Theorem C06_contexts_restore_pool : forall c malloc p w w', pool_inv (w_pool w) -> exec c malloc p w = (w', Normal) ->
  exists news, Permutation (w_pool w') (w_pool w ++ news)
    /\ length news = (w_n w' - w_n w)%nat
    /\ Forall (fun b => exists i r, (w_n w <= i < w_n w')%nat
                        /\ b = flat (empty c (r_shape r) (r_item r) (malloc i))) news.
Proof. exact exec_restores. Qed.
Print Assumptions C06_contexts_restore_pool.

(** C06: even if the body raises, the pool stays sorted and without duplicates. *)
Theorem C06_contexts_keep_invariant : forall c malloc p w w' o,
  pool_inv (w_pool w) -> exec c malloc p w = (w', o) -> pool_inv (w_pool w').
Proof. exact exec_keeps_inv. Qed.
Print Assumptions C06_contexts_keep_invariant.

(** C06: set removes exactly what it added, at the same place. *)
Theorem C06_set_restores_exactly : forall v body w w',
  (forall w0 w1, body w0 = (w1, Normal) -> w_pool w1 = w_pool w0) ->
  with_set v body w = (w', Normal) -> w_pool w' = w_pool w.
Proof. exact set_restores_exactly. Qed.
Print Assumptions C06_set_restores_exactly.

(** C06: copy_if gives the body an array of the same shape and item size with the contents of v, changes nothing else
    before, and on exit v has the contents of that array. *)
Theorem C06_copy_if_contents : forall c malloc v al co body w w', wf_config c -> pool_inv (w_pool w) ->
  0 < a_item v -> Forall (fun d => 0 <= d) (a_shape v) ->
  with_copy_if c malloc v al co body w = (w', Normal) ->
  exists h win wout, body h win = (wout, Normal)
    /\ a_shape h = a_shape v /\ a_item h = a_item v
    /\ w_mem win (a_addr h) = w_mem w (a_addr v)
    /\ w_mem w' (a_addr v) = w_mem wout (a_addr h)
    /\ (forall a, a <> a_addr v -> w_mem w' a = w_mem wout a)
    /\ (forall a, a <> a_addr h -> w_mem win a = w_mem w a).
Proof. exact copy_if_contents. Qed.
Print Assumptions C06_copy_if_contents.

(** C06, partial: the array given to the body is aligned/contiguous as requested provided every entry of the pool is.
    Missing: pools holding a user's misaligned or non-contiguous array, see C06_copy_if_requirements_refuted. *)
Theorem C06_copy_if_requirements_partial : forall c malloc v al co body w w', wf_config c -> pool_inv (w_pool w) ->
  0 < a_item v -> Forall (fun d => 0 <= d) (a_shape v) -> nbytes v <> 0 ->
  Forall (fun b => a_contig b = true /\ a_addr b mod alignment c = 0) (w_pool w) ->
  with_copy_if c malloc v al co body w = (w', Normal) ->
  exists h win wout, body h win = (wout, Normal)
    /\ (al = true -> a_addr h mod alignment c = 0) /\ (co = true -> a_contig h = true).
Proof. exact copy_if_compliant. Qed.
Print Assumptions C06_copy_if_requirements_partial.

Definition ex_world (p : pool) : world := {| w_pool := p; w_n := 0; w_mem := fun _ => [] |}.
Definition ex_malloc (n : nat) : Z := 100000 + 1000 * Z.of_nat n.
Definition ex_misaligned : arr :=
  {| a_addr := 2001; a_shape := [4]; a_item := 8; a_contig := true; a_lo := 2001; a_hi := 2033 |}.

Example C06_witness :
  let p := PSet ex_user (PSeq (PGet (ex_req 4) (PGet (ex_req 5) PSkip))
                              (PCopyIf ex_misaligned true true (PUpdate 0 (fun x => x)))) in
  let r := exec ex_config ex_malloc p (ex_world []) in
  snd r = Normal /\ w_n (fst r) = 2%nat /\ map a_addr (w_pool (fst r)) = [100032; 101024].
Proof. vm_compute. repeat split. Qed.

(** Finding: nothing is restored when the body raises: the array given to pool.set stays in the pool. *)
Theorem C06_set_exception_refuted : exists c malloc p w w' e,
  pool_inv (w_pool w) /\ exec c malloc p w = (w', Exc e) /\ w_pool w = [] /\ contains ex_user (w_pool w') = true.
Proof.
  exists ex_config, ex_malloc, (PSet ex_user (PRaise RuntimeError)), (ex_world []).
  eexists. exists RuntimeError. split; [exact pool_inv_nil|]. split; [reflexivity|]. split; reflexivity.
Qed.
Print Assumptions C06_set_exception_refuted.

(** Finding: the buffer borrowed with pool.get is lost when the body raises. *)
Theorem C06_get_exception_refuted : exists c malloc p w w' e,
  pool_inv (w_pool w) /\ exec c malloc p w = (w', Exc e) /\ w_pool w = [flat ex_user] /\ w_pool w' = [].
Proof.
  exists ex_config, ex_malloc, (PGet {| r_shape := [4]; r_item := 8; r_aligned := false; r_contig := true |} (PRaise RuntimeError)), (ex_world [flat ex_user]).
  eexists. exists RuntimeError. split; [|split; [reflexivity|split; reflexivity]].
  cbn. split; [|split]; repeat constructor; cbn; intuition.
Qed.
Print Assumptions C06_get_exception_refuted.

(** Finding: copy_if does not pass the alignment requirement to the pool, so the body may be given a misaligned array:
    here the pool holds a misaligned array of the right size. *)
Theorem C06_copy_if_requirements_refuted : exists c malloc v w h,
  wf_config c /\ pool_inv (w_pool w) /\ nbytes v <> 0
  /\ (exists w', with_copy_if c malloc v true true (fun b w => (set_mem w 0 [a_addr b], Normal)) w = (w', Normal)
                 /\ w_mem w' 0 = [h])
  /\ h mod alignment c <> 0.
Proof.
  exists ex_config, ex_malloc, ex_misaligned,
    (ex_world [flat {| a_addr := 3001; a_shape := [4]; a_item := 8; a_contig := true; a_lo := 3001; a_hi := 3033 |}]), 3001.
  split; [reflexivity|]. split.
  { cbn. split; [|split]; repeat constructor; cbn; intuition. }
  split; [cbn; discriminate|]. split; [|cbn; discriminate].
  eexists. split; [reflexivity|]. reflexivity.
Qed.
Print Assumptions C06_copy_if_requirements_refuted.
