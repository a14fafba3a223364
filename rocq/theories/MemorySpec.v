(** Independent vocabulary for the memory-pool properties. *)
From Verif Require Import Base MemoryModel.
From Coq Require Export Sorted Permutation.
Open Scope Z_scope.

(** Two arrays do not share any byte. *)
Definition disjoint_spans (l1 h1 l2 h2 : Z) : Prop := h1 <= l2 \/ h2 <= l1.
Definition disjoint (a b : arr) : Prop := disjoint_spans (a_lo a) (a_hi a) (a_lo b) (a_hi b).

(** Pairwise disjointness. *)
Definition all_disjoint (l : list arr) : Prop := ForallOrdPairs disjoint l.

(** A real array: non-empty span that contains its address, sizes non negative; a contiguous one spans exactly
    nbytes from its address (or one byte when it has none). *)
Definition wf_arr (a : arr) : Prop :=
  a_lo a <= a_addr a < a_hi a /\ 0 <= nbytes a
  /\ (a_contig a = true -> a_lo a = a_addr a /\ (a_hi a = a_addr a + nbytes a \/ nbytes a = 0 /\ a_hi a = a_addr a + 1)).

Definition wf_req (r : req) : Prop := 0 < r_item r /\ Forall (fun d => 0 <= d) (r_shape r).
Definition wf_config (c : config) : Prop := 0 < alignment c.

(** The hypotheses on the environment of a history: arrays put in the pool by a user and blocks obtained from the
    system do not overlap memory that is in the pool or handed out. *)
Definition op_fresh (c : config) (s : state) (o : op) : Prop :=
  match o with
  | Add v => wf_arr v /\ Forall (disjoint v) (s_pool s ++ s_out s)
  | Extract r m =>
      wf_req r /\
      let '(lo, hi) := empty_block c (r_shape r) (r_item r) m in
      Forall (fun b => disjoint_spans lo hi (a_lo b) (a_hi b)) (s_pool s ++ s_out s)
  | _ => True
  end.

Fixpoint ops_fresh (c : config) (ops : list op) (s : state) : Prop :=
  match ops with
  | [] => True
  | o :: ops' => op_fresh c s o /\ ops_fresh c ops' (step c s o)
  end.

(** The pool's own invariant. *)
Definition pool_inv (p : pool) : Prop :=
  NoDup (map a_addr p) /\ StronglySorted Z.le (map nbytes p) /\ Forall (fun b => flat b = b) p.

(** What a caller asks for: same shape and element size, address aligned if requested, contiguous if requested. *)
Definition meets (c : config) (r : req) (v : arr) : Prop :=
  a_shape v = r_shape r /\ a_item v = r_item r
  /\ (r_aligned r = true -> a_addr v mod alignment c = 0)
  /\ (r_contig r = true -> a_contig v = true).
