(** Programs run by several MPI processes: /repo/src/pyoperators/operators_mpi.py, utils/mpi.py and the conjugate gradient of iterative/cg.py with a communicator.
    A program is what a process does between two collective operations; arrays are flattened. *)
From Coq Require Import String.
From Verif Require Import Base Algebra Ofield SplitModel.
Local Open Scope nat_scope.

Section Programs.
Context {K : cring}.
(** A communicator: what tells it from others and the processes, in the order of their ranks *)
Record comm := Comm { c_id : list nat; c_members : list nat }.
Definition comm_eqb (c c' : comm) : bool := (if list_eq_dec Nat.eq_dec (c_id c) (c_id c') then true else false) && (if list_eq_dec Nat.eq_dec (c_members c) (c_members c') then true else false).
(** What a process passes to a collective operation and what it gets.  Allreduce is called with MPI.IN_PLACE and MPI.SUM, gather with root=0, Split with key=comm.rank. *)
Inductive request := QAllreduce (x : list K) | QAllgatherv (x : list K) (counts offsets : list Z) (out : list K) | QAllgather (s : shape) | QGather (m : string) | QSplit (color : nat) | QFree.
Inductive value := VArray (x : list K) | VShapes (l : list shape) | VMessages (l : option (list string)) | VComm (c : comm) | VNone.
Inductive prog (R : Type) := Ret (r : R) | Call (c : comm) (q : request) (k : value -> prog R) | Stuck.
Arguments Ret {R}. Arguments Call {R}. Arguments Stuck {R}.

Fixpoint all_some {A} (l : list (option A)) : option (list A) := match l with [] => Some [] | Some a :: l => match all_some l with Some l => Some (a :: l) | None => None end | None :: _ => None end.
Definition zip {A B C} (f : A -> B -> C) (x : list A) (y : list B) : list C := map (fun p => f (fst p) (snd p)) (combine x y).
(** The sum of arrays of the same length *)
Fixpoint vsum (l : list (list K)) : list K := match l with [] => [] | [x] => x | x :: l => zip radd x (vsum l) end.
(** The MPI library: the values given to the processes of a communicator, from their requests, all of the same kind; None if they are not *)
Definition serve (c : comm) (qs : list request) : option (list value) :=
  match qs with
  | [] => None
  | QAllreduce x :: _ =>
      match all_some (map (fun q => match q with QAllreduce y => if length y =? length x then Some y else None | _ => None end) qs) with
      | Some xs => Some (map (fun _ => VArray (vsum xs)) qs)
      | None => None
      end
  | QAllgatherv _ _ _ _ :: _ =>
      match all_some (map (fun q => match q with QAllgatherv y _ _ _ => Some y | _ => None end) qs) with
      | Some xs => all_some (map (fun q => match q with QAllgatherv _ counts offsets out => match allgatherv xs counts offsets out with Ok y => Some (VArray y) | Raise _ => None end | _ => None end) qs)
      | None => None
      end
  | QAllgather _ :: _ =>
      match all_some (map (fun q => match q with QAllgather s => Some s | _ => None end) qs) with Some l => Some (map (fun _ => VShapes l) qs) | None => None end
  | QGather _ :: qs' =>
      match all_some (map (fun q => match q with QGather m => Some m | _ => None end) qs) with Some l => Some (VMessages (Some l) :: map (fun _ => VMessages None) qs') | None => None end
  | QSplit _ :: _ =>
      match all_some (map (fun q => match q with QSplit k => Some k | _ => None end) qs) with
      | Some l => Some (map (fun k => VComm (Comm (c_id c ++ [k]) (map fst (filter (fun p => snd p =? k) (combine (c_members c) l))))) l)
      | None => None
      end
  | QFree :: _ => if forallb (fun q => match q with QFree => true | _ => false end) qs then Some (map (fun _ => VNone) qs) else None
  end.

(** One step: the processes of a communicator have all called it.  [cfg] lists the programs of the processes. *)
Section Run.
Context {R : Type}.
Definition calling (c : comm) (p : option (prog R)) : option (request * (value -> prog R)) := match p with Some (Call c' q k) => if comm_eqb c c' then Some (q, k) else None | _ => None end.
Fixpoint put (cfg : list (prog R)) (m : nat) (p : prog R) : list (prog R) := match cfg, m with [], _ => [] | _ :: cfg, O => p :: cfg | p' :: cfg, S m => p' :: put cfg m p end.
Definition deliver (cfg : list (prog R)) (l : list (nat * prog R)) : list (prog R) := fold_left (fun cfg mp => put cfg (fst mp) (snd mp)) l cfg.
Definition fire (c : comm) (cfg : list (prog R)) : option (list (prog R)) :=
  match all_some (map (fun m => calling c (nth_error cfg m)) (c_members c)) with
  | Some l => match serve c (map fst l) with Some vs => Some (deliver cfg (combine (c_members c) (zip (fun qk v => snd qk v) l vs))) | None => None end
  | None => None
  end.
(** A schedule: the order in which the collective operations take place *)
Fixpoint run (cfg : list (prog R)) (schedule : list comm) : option (list (prog R)) := match schedule with [] => Some cfg | c :: s => match fire c cfg with Some cfg => run cfg s | None => None end end.

(** Collective operations, followed by the rest [k] of the program *)
Definition allreduce (c : comm) (x : list K) (k : list K -> prog R) : prog R := Call c (QAllreduce x) (fun v => match v with VArray y => k y | _ => Stuck end).
Definition allgatherv_call (c : comm) (x : list K) (counts offsets : list Z) (out : list K) (k : list K -> prog R) : prog R := Call c (QAllgatherv x counts offsets out) (fun v => match v with VArray y => k y | _ => Stuck end).

(** MPIDistributionIdentityOperator, operators_mpi.py 137-160: an IdentityOperator if the communicator has one process.  The method direct gives the input. *)
Definition identity_transpose (c : comm) (x : list K) (k : list K -> prog R) : prog R := if length (c_members c) =? 1 then k x else allreduce c x k.
(** MPIDistributionGlobalOperator.transpose, 78-92; [view(np.byte)] and mpi4py need contiguous arrays.  Input and output have the same type (core.py 1306-1338), so that they are not converted and
    counts and offsets are given in elements.  The error of the constructor for a scalar is left out. *)
Definition global_transpose (c : comm) (sh : shape) (contiguous : bool) (x out : list K) (k : result (list K) -> prog R) : prog R :=
  if contiguous then
    match global_counts_offsets sh (Z.of_nat (length (c_members c))) with
    | Ok co => allgatherv_call c x (fst co) (snd co) out (fun y => k (Ok y))
    | Raise e => k (Raise e)
    end
  else k (Raise ValueError).
(** combine, utils/mpi.py 67-74 *)
Definition combine_p (c : comm) (n : K) (k : K -> prog R) : prog R := allreduce c [n] (fun l => match l with [s] => k s | _ => Stuck end).
(** combine_shape, 89-101 *)
Definition combine_shape_p (c : comm) (s : shape) (k : result shape -> prog R) : prog R := Call c (QAllgather s) (fun v => match v with VShapes l => k (combine_shape l) | _ => Stuck end).
(** filter_comm, 165-200, and the body of the with statement: there is no try/finally around the yield *)
Definition filter_comm {A} (c : comm) (condition : bool) (body : option comm -> (result A -> prog R) -> prog R) (k : result A -> prog R) : prog R :=
  Call c (QSplit (if condition then 1 else 0)) (fun v =>
    match v with
    | VComm new => body (if condition then Some new else None) (fun r => match r with Ok a => Call new QFree (fun _ => k (Ok a)) | Raise e => k (Raise e) end)
    | _ => Stuck
    end).
(** mprint, 203-219: the lines that are printed, with a rank or not *)
Definition mprint (c : comm) (rank : nat) (m : string) (k : list (option nat * string) -> prog R) : prog R :=
  Call c (QGather m) (fun v =>
    match v with
    | VMessages l =>
        if rank =? 0 then
          match l with
          | Some ms => if forallb (fun m' => String.eqb m' (hd m ms)) ms then k [(None, m)] else k (map (fun im => (Some (fst im), snd im)) (combine (seq 0 (length ms)) ms))
          | None => Stuck
          end
        else k []
    | _ => Stuck
    end).
End Run.
End Programs.
Arguments prog : clear implicits. Arguments Ret {K R}. Arguments Call {K R}. Arguments Stuck {K R}.

(** The conjugate gradient, iterative/cg.py, run by each process: b and x are its arrays, [A] and [M] what it does to apply the operators, [c] is A.commin *)
Section Pcg.
Context {K : ofield} {R : Type}.
Local Open Scope cr_scope.
Notation prog := (prog K R).
(** _dot and _norm2, 251-263 *)
Definition dot_p (c : option comm) (x y : list K) (k : K -> prog) : prog :=
  match c with None => k (ldot x y) | Some c => allreduce c [ldot x y] (fun l => match l with [s] => k s | _ => Stuck end) end.
Record lstate := LSt { l_x : list K; l_r : list K; l_d : list K; l_delta : K; l_error2 : K; l_niter : nat }.
Inductive loutcome := LFine (s : lstate) | LStops (s : lstate) | LNotANumber.
Inductive lanswer := LSuccess (s : lstate) | LFailure (s : lstate) | LGarbage.
Context (A M : list K -> (list K -> prog) -> prog) (c : option comm) (b : list K) (tol : K).
Definition small (e2 : K) : bool := ltb 0 tol && ltb e2 (tol * tol).
(** initialize, 126-140 *)
Definition initialize_p (b_norm : K) (x0 junk : list K) (k : loutcome -> prog) : prog :=
  if eqb b_norm 0 then k (LStops (LSt (map (fun _ => 0) x0) junk junk 0 0 0))
  else A x0 (fun ax =>
    let r := zip rsub b ax in
    dot_p c r r (fun rr =>
      let error2 := div rr b_norm in
      if small error2 then k (LStops (LSt x0 r junk 0 error2 0))
      else M r (fun d => dot_p c r d (fun delta => k (LFine (LSt x0 r d delta error2 0)))))).
(** iteration, 142-158 *)
Definition iteration_p (b_norm : K) (s : lstate) (k : loutcome -> prog) : prog :=
  A (l_d s) (fun q => dot_p c (l_d s) q (fun dq =>
    if eqb dq 0 then k LNotANumber
    else
      let alpha := div (l_delta s) dq in
      let x := zip radd (l_x s) (map (rmul alpha) (l_d s)) in
      let r := zip rsub (l_r s) (map (rmul alpha) q) in
      dot_p c r r (fun rr =>
        let error2 := div rr b_norm in
        if small error2 then k (LStops (LSt x r (l_d s) (l_delta s) error2 (S (l_niter s))))
        else M r (fun s' => dot_p c r s' (fun delta =>
          if eqb (l_delta s) 0 then k LNotANumber
          else
            let beta := div delta (l_delta s) in
            k (LFine (LSt x r (zip radd (map (fun e => e * beta) (l_d s)) s') delta error2 (S (l_niter s))))))))).
(** run, as in CgModel.v; the norm of b is computed by the constructor, 119 *)
Fixpoint loop_p (b_norm : K) (todo : nat) (s : lstate) (k : lanswer -> prog) : prog :=
  match todo with
  | O => k (LFailure s)
  | S todo => iteration_p b_norm s (fun o => match o with LFine s => loop_p b_norm todo s k | LStops s => k (LSuccess s) | LNotANumber => k LGarbage end)
  end.
Definition pcg_p (x0 junk : list K) (maxiter : nat) (k : lanswer -> prog) : prog :=
  dot_p c b b (fun b_norm => initialize_p b_norm x0 junk (fun o => match o with LFine s => loop_p b_norm maxiter s k | LStops s => k (LSuccess s) | LNotANumber => k LGarbage end)).
End Pcg.
Arguments lstate : clear implicits. Arguments loutcome : clear implicits. Arguments lanswer : clear implicits.
