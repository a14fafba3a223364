(** The buffer pool: memory.py. *)
From Verif Require Import Base.
Open Scope Z_scope.

(** config.py: MEMORY_ALIGNMENT and MEMORY_TOLERANCE (1.2, kept as the fraction tol_num / tol_den). *)
Record config := { alignment : Z; tol_num : Z; tol_den : Z }.

(** What the pool looks at in a numpy array: base address, shape, item size, C-contiguity flag, and the interval of
    bytes [a_lo, a_hi) it spans (only used to state disjointness; for a contiguous array it starts at the address). *)
Record arr := { a_addr : Z; a_shape : list Z; a_item : Z; a_contig : bool; a_lo : Z; a_hi : Z }.

Definition zprod (l : list Z) : Z := fold_right Z.mul 1 l.

(** ndarray.nbytes *)
Definition nbytes (a : arr) : Z := zprod (a_shape a) * a_item a.

Definition shape_eqb (a b : list Z) : bool := if list_eq_dec Z.eq_dec a b then true else false.

(** A request: shape, dtype.itemsize, aligned, contiguous. *)
Record req := { r_shape : list Z; r_item : Z; r_aligned : bool; r_contig : bool }.
Definition r_nbytes (r : req) : Z := zprod (r_shape r) * r_item r.

(** [empty], memory.py 25-77.  [m] is the address of the block obtained from np.empty (line 61/64, or line 37 when no
    byte is requested).  The verbose printing is not modelled; MemoryError is not modelled. *)
Definition empty (c : config) (shape : list Z) (item : Z) (m : Z) : arr :=
  let requested := zprod shape * item in
  if requested =? 0
  then {| a_addr := m; a_shape := shape; a_item := item; a_contig := true; a_lo := m; a_hi := m + 1 |}
  else
    let offset := alignment c - m mod alignment c in
    {| a_addr := m + offset; a_shape := shape; a_item := item; a_contig := true;
       a_lo := m + offset; a_hi := m + offset + requested |}.

(** The block requested from the system by [empty]: lines 37 and 61 (np.empty allocates one byte when asked for none). *)
Definition empty_block (c : config) (shape : list Z) (item : Z) (m : Z) : Z * Z :=
  let requested := zprod shape * item in
  if requested =? 0 then (m, m + 1) else (m, m + (requested + alignment c)).

(** [iscompatible], memory.py 102-121; [tol] = None stands for np.inf. *)
Definition iscompatible (c : config) (a : arr) (r : req) (tol : option (Z * Z)) : bool :=
  if r_aligned r && negb (a_addr a mod alignment c =? 0) then false
  else if negb (a_contig a) then
    if r_contig r then false
    else shape_eqb (a_shape a) (r_shape r) && (a_item a =? r_item r)
  else
    let nb := r_nbytes r in
    if nb =? 0 then false
    else (nb <=? nbytes a)
         && match tol with None => true | Some (n, d) => nbytes a * d <=? n * nb end.

Definition pool := list arr.

(** utils.ifirst used on the list of buffers, utils/misc.py 418-455: index of the first match. *)
Fixpoint ifirst {A} (f : A -> bool) (l : list A) : option nat :=
  match l with
  | [] => None
  | x :: l' => if f x then Some O else match ifirst f l' with Some i => Some (S i) | None => None end
  end.

(** list.insert *)
Definition insert {A} (i : nat) (x : A) (l : list A) : list A := firstn i l ++ x :: skipn i l.

(** list.pop(i) without the returned value *)
Definition pop {A} (i : nat) (l : list A) : list A := firstn i l ++ skipn (S i) l.

(** [v.ravel().view(np.int8)] when v is contiguous, memory.py 136-137: same memory, 1d of bytes. *)
Definition flat (v : arr) : arr :=
  if a_contig v
  then {| a_addr := a_addr v; a_shape := [nbytes v]; a_item := 1; a_contig := true; a_lo := a_lo v; a_hi := a_hi v |}
  else v.

(** MemoryPool.add, memory.py 132-148. *)
Definition add (v : arr) (p : pool) : result pool :=
  let v := flat v in
  if existsb (fun b => a_addr b =? a_addr v) p then Raise ValueError
  else
    let i := match ifirst (fun x => nbytes v <=? nbytes x) p with Some i => i | None => length p end in
    Ok (insert i v p).

(** MemoryPool.remove, memory.py 244-254: ifirst raises ValueError when there is no such address. *)
Definition remove (v : arr) (p : pool) : result pool :=
  match ifirst (fun b => a_addr b =? a_addr v) p with
  | Some i => Ok (pop i p)
  | None => Raise ValueError
  end.

(** MemoryPool.__contains__, memory.py 296-307. *)
Definition contains (v : arr) (p : pool) : bool :=
  match ifirst (fun b => a_addr b =? a_addr v) p with Some _ => true | None => false end.

(** MemoryPool.extract, memory.py 180-208; [m] is the address the allocator would return. The boolean tells whether
    the allocator was used. *)
Definition extract (c : config) (r : req) (m : Z) (p : pool) : arr * pool * bool :=
  match ifirst (fun b => iscompatible c b r (Some (tol_num c, tol_den c))) p with
  | Some i =>
      match nth_error p i with
      | Some v => (v, pop i p, false)
      | None => (empty c (r_shape r) (r_item r) m, p, true) (* not reached: i is an index of p *)
      end
  | None => (empty c (r_shape r) (r_item r) m, p, true)
  end.

(** MemoryPool.view, memory.py 280-294: [buf[:required].view(dtype).reshape(shape)].  A slice truncates, so when the
    buffer is too small the reshape raises ValueError. *)
Definition view (b : arr) (shape : list Z) (item : Z) : result arr :=
  if a_contig b then
    let required := item * zprod shape in
    if required <=? nbytes b
    then Ok {| a_addr := a_addr b; a_shape := shape; a_item := item; a_contig := true;
               a_lo := a_addr b; a_hi := a_addr b + required |}
    else Raise ValueError
  else if shape_eqb (a_shape b) shape && (a_item b =? item) then Ok b
  else Raise ValueError.

(** ** Histories: arbitrary interleavings of pool operations by any number of users.

    The state is the pool and the list of the buffers that were handed out (by extract, or by entering get) and not
    yet given back.  [Extract r m]: memory.py 180 or 223-224 (the allocator would return m); [GiveBack i]: the exit of
    get, line 229; [Add]/[Remove]: also the entry and exit of set (lines 262, 264). *)
Inductive op :=
| Add (v : arr)
| Remove (v : arr)
| Extract (r : req) (m : Z)
| GiveBack (i : nat)
| Clear.

Record state := { s_pool : pool; s_out : list arr }.
Definition init : state := {| s_pool := []; s_out := [] |}.

Definition step (c : config) (s : state) (o : op) : state :=
  match o with
  | Add v => match add v (s_pool s) with Ok p => {| s_pool := p; s_out := s_out s |} | Raise _ => s end
  | Remove v => match remove v (s_pool s) with Ok p => {| s_pool := p; s_out := s_out s |} | Raise _ => s end
  | Extract r m => let '(v, p, _) := extract c r m (s_pool s) in {| s_pool := p; s_out := v :: s_out s |}
  | GiveBack i =>
      match nth_error (s_out s) i with
      | None => s
      | Some v => match add v (s_pool s) with
                  | Ok p => {| s_pool := p; s_out := pop i (s_out s) |}
                  | Raise _ => s
                  end
      end
  | Clear => {| s_pool := []; s_out := s_out s |}
  end.

Definition run (c : config) (ops : list op) (s : state) : state := fold_left (step c) ops s.

(** ** Context managers, memory.py 158-178 (copy_if), 211-229 (get), 231-242 (get_if), 256-278 (set, set_if)

    A world is the pool, the number of allocations made so far and the contents of the memory (per base address).
    A body is a function from the world to the world with a normal or exceptional outcome: with @contextmanager, an
    exception of the body is raised at the yield, and since the code has no try/finally nothing after it runs. *)
Record world := { w_pool : pool; w_n : nat; w_mem : Z -> list Z }.
Inductive outcome := Normal | Exc (e : exn).
Definition comp := world -> world * outcome.

Definition set_pool (w : world) (p : pool) : world := {| w_pool := p; w_n := w_n w; w_mem := w_mem w |}.
Definition set_mem (w : world) (a : Z) (x : list Z) : world :=
  {| w_pool := w_pool w; w_n := w_n w; w_mem := fun b => if b =? a then x else w_mem w b |}.

(** [pool.get(...)] with the body receiving the view. [malloc n] is the address of the n-th allocation. *)
Definition with_get (c : config) (malloc : nat -> Z) (r : req) (body : arr -> comp) : comp := fun w =>
  let '(v_, p, fresh) := extract c r (malloc (w_n w)) (w_pool w) in
  let w1 := {| w_pool := p; w_n := if fresh then S (w_n w) else w_n w; w_mem := w_mem w |} in
  match view v_ (r_shape r) (r_item r) with
  | Raise e => (w1, Exc e)
  | Ok v =>
      match body v w1 with
      | (w2, Exc e) => (w2, Exc e)
      | (w2, Normal) =>
          match add v_ (w_pool w2) with
          | Raise e => (w2, Exc e)
          | Ok p2 => (set_pool w2 p2, Normal)
          end
      end
  end.

(** [pool.get_if(condition, ...)]: the body receives None when the condition is false. *)
Definition with_get_if (c : config) (malloc : nat -> Z) (cond : bool) (r : req) (body : option arr -> comp) : comp :=
  if cond then with_get c malloc r (fun v => body (Some v)) else body None.

(** [pool.set(v)] *)
Definition with_set (v : arr) (body : comp) : comp := fun w =>
  match add v (w_pool w) with
  | Raise e => (w, Exc e)
  | Ok p =>
      match body (set_pool w p) with
      | (w2, Exc e) => (w2, Exc e)
      | (w2, Normal) =>
          match remove v (w_pool w2) with
          | Raise e => (w2, Exc e)
          | Ok p2 => (set_pool w2 p2, Normal)
          end
      end
  end.

(** [pool.set_if(condition, v)] *)
Definition with_set_if (cond : bool) (v : arr) (body : comp) : comp :=
  if cond then with_set v body else body.

(** [pool.copy_if(v, aligned, contiguous)], memory.py 158-178.  [get] is called with v.shape and v.dtype only: the
    alignment and contiguity requirements are not passed on (line 173). *)
Definition with_copy_if (c : config) (malloc : nat -> Z) (v : arr) (aligned contiguous : bool)
    (body : arr -> comp) : comp := fun w =>
  let al := if aligned then alignment c else 1 in
  if negb (a_addr v mod al =? 0) || (contiguous && negb (a_contig v))
  then
    with_get c malloc {| r_shape := a_shape v; r_item := a_item v; r_aligned := false; r_contig := false |}
      (fun buf w1 =>
         let w2 := set_mem w1 (a_addr buf) (w_mem w1 (a_addr v)) in
         match body buf w2 with
         | (w3, Exc e) => (w3, Exc e)
         | (w3, Normal) => (set_mem w3 (a_addr v) (w_mem w3 (a_addr buf)), Normal)
         end) w
  else body v w.

(** ** Programs: properly nested uses of the context managers *)
Inductive prog :=
| PSkip
| PRaise (e : exn)
| PUpdate (a : Z) (f : list Z -> list Z)   (* user code writing in the memory at address a *)
| PSeq (p q : prog)
| PGet (r : req) (p : prog)
| PGetIf (b : bool) (r : req) (p : prog)
| PSet (v : arr) (p : prog)
| PSetIf (b : bool) (v : arr) (p : prog)
| PCopyIf (v : arr) (aligned contiguous : bool) (p : prog).

Fixpoint exec (c : config) (malloc : nat -> Z) (p : prog) : comp :=
  match p with
  | PSkip => fun w => (w, Normal)
  | PRaise e => fun w => (w, Exc e)
  | PUpdate a f => fun w => (set_mem w a (f (w_mem w a)), Normal)
  | PSeq p q => fun w => match exec c malloc p w with
                         | (w1, Normal) => exec c malloc q w1
                         | r => r
                         end
  | PGet r p => with_get c malloc r (fun _ => exec c malloc p)
  | PGetIf b r p => with_get_if c malloc b r (fun _ => exec c malloc p)
  | PSet v p => with_set v (exec c malloc p)
  | PSetIf b v p => with_set_if b v (exec c malloc p)
  | PCopyIf v al co p => with_copy_if c malloc v al co (fun _ => exec c malloc p)
  end.
