(** Running products, sums and calls over a memory: core.py 431-500, 1301-1395, 1839-1862, 2328-2396, 2492-2641. *)
From Verif Require Import Base MemoryModel.
Open Scope Z_scope.

(** The same sequencing as [x <- r ;; k] for a tuple. *)
Notation "'let*' p := r 'in' k" := (rbind r (fun x => match x with p => k end))
  (at level 200, p pattern, k at level 200, right associativity).

Definition AssertionError : exn := OtherError 1.

(** The pool, the number of allocations made so far and the contents of the memory, per base address.  Two arrays with
    the same address share their memory (utils.isalias, utils/misc.py 581, compares addresses), two arrays with
    different addresses do not.  [V] is the type of what an array holds. *)
Record world (V : Type) := W { bpool : pool; bn : nat; bheap : Z -> V }.
Arguments W {V}.
Arguments bpool {V}.
Arguments bn {V}.
Arguments bheap {V}.

Definition with_pool {V} (w : world V) (p : pool) : world V := W p (bn w) (bheap w).
Definition write {V} (w : world V) (a : Z) (x : V) : world V :=
  W (bpool w) (bn w) (fun b => if b =? a then x else bheap w b).

(** utils.isalias, utils/misc.py 581: same address. *)
Definition isalias (a b : arr) : bool := a_addr a =? a_addr b.

(** What the code below uses of an operator: its flags, the shape and the item size of its output in the product at
    hand (the lists returned by _get_shapes and _get_dtypes, core.py 2598-2603 and 2643-2679, see C15), and its method
    direct.  The first argument of [p_exec] tells whether the keyword [operation] is given with the reduction of the
    caller (true) or left to the assignment (false); then come the input, the output and the memory. *)
Record operand (V : Type) := {
  p_inplace : bool; p_update : bool; p_al_in : bool; p_al_out : bool; p_ct_in : bool; p_ct_out : bool;
  p_shape : list Z; p_item : Z;
  p_exec : bool -> arr -> arr -> world V -> result (world V) }.
Arguments p_inplace {V}.
Arguments p_update {V}.
Arguments p_al_in {V}.
Arguments p_al_out {V}.
Arguments p_ct_in {V}.
Arguments p_ct_out {V}.
Arguments p_shape {V}.
Arguments p_item {V}.
Arguments p_exec {V}.

Definition p_size {V} (p : operand V) : Z := zprod (p_shape p) * p_item p.

(** A group of operators working on the same buffer: one entry of ninplaces, aligneds and contiguouss. *)
Record group := G { g_n : nat; g_al : bool; g_ct : bool }.

(** CompositionOperator._get_requirements, core.py 2605-2641.  The operands are listed from the innermost, as the two
    nested loops visit them, and so are the groups; n, al, ct are ninplace, aligned and contiguity. *)
Fixpoint requirements {V} (ops : list (operand V)) (n : nat) (al ct : bool) : list group :=
  match ops with
  | [] => [G n al ct]
  | op :: ops' =>
      let al' := al || p_al_in op in
      let ct' := ct || p_ct_in op in
      if p_inplace op then requirements ops' (S n) al' ct'
      else G n al' ct' :: requirements ops' 0 (p_al_out op) (p_ct_out op)
  end.

Definition aligned_at (c : config) (a : arr) : bool := a_addr a mod alignment c =? 0.

Definition zmax (l : list Z) : Z := fold_right Z.max 0 l.

(** _get_info 2545-2557: "make last operand out-of-place". The groups are listed from the outermost. *)
Definition split_last (gs : list group) (al ct : bool) : result (list group) :=
  match rev gs with
  | G (S n) a k :: gs' => Ok (rev gs' ++ [G n a k; G 0 al ct])
  | _ => Raise AssertionError
  end.

(** _get_info 2559-2571: "make first operand out-of-place". *)
Definition split_first (gs : list group) (al ct : bool) : result (list group) :=
  match gs with
  | G (S n) a k :: gs' => Ok (G 0 al ct :: G n a k :: gs')
  | _ => Raise AssertionError
  end.

Definition last_group (gs : list group) : group := last gs (G 0 false false).
Definition first_group (gs : list group) : group := hd (G 0 false false) gs.

(** The two conditions, core.py 2546-2553 and 2560-2567. *)
Definition need_split_last {V} (c : config) (ops : list (operand V)) (gs : list group) (input : arr)
    (preserve_input : bool) : bool :=
  preserve_input && match rev ops with op :: _ => p_inplace op | [] => false end
  || negb (aligned_at c input) && g_al (last_group gs)
  || negb (a_contig input) && g_ct (last_group gs).

Definition need_split_first {V} (c : config) (ops : list (operand V)) (gs : list group) (output : arr) : bool :=
  (hd 0 (map p_size ops) <? zmax (firstn (S (g_n (first_group gs))) (map p_size ops)))
  || negb (aligned_at c output) && g_al (first_group gs)
  || negb (a_contig output) && g_ct (first_group gs).

(** CompositionOperator._get_info, core.py 2492-2587: the groups, from the outermost to the innermost.  The cache
    self._info is not modelled (its key holds everything the result depends on). *)
Definition get_groups {V} (c : config) (ops : list (operand V)) (input output : arr) (preserve_input : bool)
    : result (list group) :=
  let gs := rev (requirements (rev ops) 0 false false) in
  gs <- (if need_split_last c ops gs input preserve_input
         then split_last gs (aligned_at c input) (a_contig input) else Ok gs) ;;
  if need_split_first c ops gs output then split_first gs (aligned_at c output) (a_contig output) else Ok gs.

(** CompositionOperator._get_bufsizes, core.py 2589-2596, paired with the groups ([lst] is sizes[-1]). *)
Fixpoint get_bufsizes (sizes : list Z) (lst : Z) (gs : list group) : list (group * Z) :=
  match gs with
  | [] => []
  | [g] => [(g, lst)]
  | g :: gs' => (g, zmax (firstn (S (g_n g)) sizes)) :: get_bufsizes (skipn (S (g_n g)) sizes) lst gs'
  end.

(** MemoryPool.extract(bufsize, np.int8, aligned, contiguous) in a world. *)
Definition w_extract {V} (c : config) (malloc : nat -> Z) (r : req) (w : world V) : arr * world V :=
  let '(b, p, fresh) := extract c r (malloc (bn w)) (bpool w) in
  (b, W p (if fresh then S (bn w) else bn w) (bheap w)).

Definition w_add {V} (a : arr) (w : world V) : result (world V) := p <- add a (bpool w) ;; Ok (with_pool w p).
Definition w_remove {V} (a : arr) (w : world V) : result (world V) := p <- remove a (bpool w) ;; Ok (with_pool w p).

Definition bytes_req (n : Z) (al ct : bool) : req := {| r_shape := [n]; r_item := 1; r_aligned := al; r_contig := ct |}.

(** "loop over inplace operations", core.py 2379-2384: returns the last view, the remaining operands (from the
    innermost) and the memory. *)
Fixpoint run_inplace {V} (n : nat) (ops : list (operand V)) (i o_ : arr) (w : world V)
    : result (arr * list (operand V) * world V) :=
  match n, ops with
  | O, _ => Ok (i, ops, w)
  | S n', [] => Raise IndexError
  | S n', op :: ops' =>
      o <- view o_ (p_shape op) (p_item op) ;;
      w <- p_exec op false i o w ;;
      run_inplace n' ops' o o_ w
  end.

(** One turn of "outer loop over groups of operators" for a group that is not the innermost one, core.py 2346-2388.
    [igroup] counts the groups from the outermost, [update] is the flag of the product, [assign] tells whether the
    operation is the assignment.  Returns i, i_, the remaining operands and the memory. *)
Definition run_group {V} (c : config) (malloc : nat -> Z) (input output : arr) (preserve_input assign update : bool)
    (ngroups igroup : nat) (g : group) (bufsize : Z) (i i_ : arr) (ops : list (operand V)) (w : world V)
    : result (arr * arr * list (operand V) * world V) :=
  let reuse_output :=
    (assign && Nat.even igroup && iscompatible c output (bytes_req bufsize (g_al g) (g_ct g)) None
     && negb (isalias output i))
    || Nat.eqb igroup 0 in
  let '(o_, w) := if reuse_output then (output, w) else w_extract c malloc (bytes_req bufsize (g_al g) (g_ct g)) w in
  w <- (if reuse_output then Ok w else w_add output w) ;;
  match ops with
  | [] => Raise IndexError
  | op :: ops' =>
      o <- view o_ (p_shape op) (p_item op) ;;
      w <- p_exec op (match ops' with [] => update && negb assign | _ => false end) i o w ;;
      w <- (if (Nat.ltb igroup (ngroups - 2) || negb preserve_input) && negb (isalias i_ output)
            then w_add i_ w else Ok w) ;;
      let* (i, ops', w) := run_inplace (g_n g) ops' o o_ w in
      w <- (if reuse_output then Ok w else w_remove output w) ;;
      Ok (i, o_, ops', w)
  end.

(** The remaining turns; the groups are listed from the innermost, so that igroup is the number of groups left. *)
Fixpoint run_groups {V} (c : config) (malloc : nat -> Z) (input output : arr) (preserve_input assign update : bool)
    (ngroups : nat) (gs : list (group * Z)) (i i_ : arr) (ops : list (operand V)) (w : world V) : result (world V) :=
  match gs with
  | [] => Ok w
  | (g, bufsize) :: gs' =>
      let* (i, i_, ops, w) :=
        run_group c malloc input output preserve_input assign update ngroups (length gs') g bufsize i i_ ops w in
      run_groups c malloc input output preserve_input assign update ngroups gs' i i_ ops w
  end.

(** CompositionOperator.direct, core.py 2328-2396.  The keyword preserve_input is not modelled: no caller gives it, so
    that it is True, and the variable of the same name is False exactly when the input is also the output.  Therefore
    the final [_pool.remove(input)] (2390-2391) is never reached. *)
Definition composition_direct {V} (c : config) (malloc : nat -> Z) (ops : list (operand V)) (assign : bool)
    (input output : arr) (w : world V) : result (world V) :=
  let preserve_input := negb (isalias input output) in
  let update := match ops with op :: _ => p_update op | [] => false end in (* _merge_flags, core.py 2744 *)
  gs <- get_groups c ops input output preserve_input ;;
  let o_ := if isalias input output then if nbytes input <? nbytes output then output else input else output in
  match rev (get_bufsizes (map p_size ops) (last (map p_size ops) 0) gs) with
  | [] => Ok w
  | (g, _) :: gs' =>
      let* (i, ops', w) := run_inplace (g_n g) (rev ops) input o_ w in
      run_groups c malloc input output preserve_input assign update (length gs) gs' i input ops' w
  end.

(** list.index and the exchange of two items, as used by CommutativeCompositeOperator.direct, core.py 1847-1849:
    the first operand that cannot update its output goes first. *)
Fixpoint take_first {A} (f : A -> bool) (l : list A) : option (list A * A * list A) :=
  match l with
  | [] => None
  | x :: l' =>
      if f x then Some ([], x, l')
      else match take_first f l' with Some (l1, y, l2) => Some (x :: l1, y, l2) | None => None end
  end.

Definition exchange {V} (ops : list (operand V)) : list (operand V) :=
  match take_first (fun p => negb (p_update p)) ops with
  | Some (x :: l1, y, l2) => y :: l1 ++ x :: l2
  | _ => ops
  end.

(** The loop over operands[1:], core.py 1856-1862; [oper] is the in-place operation (iadd or imul). *)
Fixpoint run_updates {V} (oper : V -> V -> V) (ops : list (operand V)) (input output : arr) (buf : option arr)
    (w : world V) : result (world V) :=
  match ops with
  | [] => Ok w
  | op :: ops' =>
      w <- (if p_update op then p_exec op true input output w
            else match buf with
                 | None => Raise AttributeError
                 | Some b =>
                     w <- p_exec op false input b w ;;
                     Ok (write w (a_addr output) (oper (bheap w (a_addr output)) (bheap w (a_addr b))))
                 end) ;;
      run_updates oper ops' input output buf w
  end.

(** CommutativeCompositeOperator.direct, core.py 1839-1862.  pool.get_if is memory.py 231-242 and 211-229: no alignment
    nor contiguity is asked for. *)
Definition commutative_direct {V} (c : config) (malloc : nat -> Z) (oper : V -> V -> V) (ops : list (operand V))
    (input output : arr) (w : world V) : result (world V) :=
  if Nat.leb (length ops) 1 then Raise AssertionError else
  let need_temporary := Nat.ltb 1 (length (filter (fun p => negb (p_update p)) ops)) in
  match exchange ops with
  | [] => Raise AssertionError
  | op :: ops' =>
      w <- p_exec op false input output w ;;
      if need_temporary
      then
        let r := {| r_shape := a_shape output; r_item := a_item output; r_aligned := false; r_contig := false |} in
        let '(b, w) := w_extract c malloc r w in
        v <- view b (a_shape output) (a_item output) ;;
        w <- run_updates oper ops' input output (Some v) w ;;
        w_add b w
      else run_updates oper ops' input output None w
  end.

(** Operator._validate_arguments and the part of Operator.__call__ that deals with the buffers, core.py 1301-1395 and
    450-480, for a given output array and preserve_input = True (the default).  [dtype_ok] tells whether the input has
    the type of the operator and [item] is the item size of that type; otherwise the copy converts it with [cast].
    Shapes are supposed to be valid (C15) and the output to have the right type.  The propagation of classes and
    attributes is not modelled. *)
Definition call {V} (c : config) (malloc : nat -> Z) (cast : V -> V) (op : operand V) (dtype_ok : bool) (item : Z)
    (assign : bool) (x out : arr) (w : world V) : result (world V) :=
  if negb assign && negb (p_update op) then Raise ValueError else
  let rin := {| r_shape := a_shape x; r_item := item; r_aligned := p_al_in op; r_contig := p_ct_in op |} in
  let rout := {| r_shape := a_shape out; r_item := item; r_aligned := p_al_out op; r_contig := p_ct_out op |} in
  (* input, input_ *)
  let* (i, i_, w) :=
    (if negb dtype_ok || negb (iscompatible c x rin None)
     then
       let '(buf, i_, w) :=
         if p_inplace op && iscompatible c out rin None then (out, None, w)
         else let '(b, w) := w_extract c malloc rin w in (b, Some b, w) in
       v <- view buf (a_shape x) item ;;
       let data := bheap w (a_addr x) in
       Ok (v, i_, write w (a_addr v) (if dtype_ok then data else cast data))
     else Ok (x, None, w)) in
  (* output, output_ *)
  let* (o, o_, w) :=
    (if negb (iscompatible c out rout None) || isalias i out && negb (p_inplace op)
     then
       let '(b, w) := w_extract c malloc rout w in
       v <- view b (a_shape out) item ;;
       Ok (v, Some b, w)
     else Ok (out, None, w)) in
  let reuse_out := negb (isalias out i) && negb (isalias out o) in
  w <- (if reuse_out then w_add out w else Ok w) ;;
  w <- p_exec op (p_update op && negb assign) i o w ;;
  w <- (if reuse_out then w_remove out w else Ok w) ;;
  w <- match i_ with Some b => w_add b w | None => Ok w end ;;
  if isalias out o then Ok w
  else
    let w := write w (a_addr out) (bheap w (a_addr o)) in
    match o_ with Some b => w_add b w | None => Ok w end.
