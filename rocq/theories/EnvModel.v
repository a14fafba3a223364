(** The environment variables: config.py (getenv) and utils/misc.py (omp_num_threads, pool_threading).  Texts are lists of ASCII characters
    (the other digits and spaces that Python knows are not modelled). *)
From Coq Require Import Ascii String.
From Verif Require Import Base.
Local Open Scope Z_scope.

Definition text := list ascii.
Definition lit (s : string) : text := list_ascii_of_string s.

(** str.strip *)
Definition is_space (c : ascii) : bool :=
  let n := nat_of_ascii c in (Nat.leb 9 n && Nat.leb n 13) || (Nat.leb 28 n && Nat.leb n 32).
Fixpoint lstrip (t : text) : text := match t with c :: t' => if is_space c then lstrip t' else t | [] => [] end.
Definition strip (t : text) : text := rev (lstrip (rev (lstrip t))).

(** int(text) on a text without spaces around it: a sign and digits, in groups separated by underscores; None for ValueError.  (The limit on
    the number of digits is not modelled.) *)
Definition is_digit (c : ascii) : bool := Nat.leb 48 (nat_of_ascii c) && Nat.leb (nat_of_ascii c) 57.
Definition digit (c : ascii) : Z := Z.of_nat (nat_of_ascii c) - 48.
Fixpoint parse_digits (after_digit : bool) (acc : Z) (t : text) : option Z :=
  match t with
  | [] => if after_digit then Some acc else None
  | c :: t' => if is_digit c then parse_digits true (10 * acc + digit c) t'
               else if (if ascii_dec c "_"%char then after_digit else false) then parse_digits false acc t' else None
  end.
Definition parse_int (t : text) : option Z :=
  match t with
  | c :: t' => if ascii_dec c "-"%char then option_map Z.opp (parse_digits false 0 t')
               else if ascii_dec c "+"%char then parse_digits false 0 t' else parse_digits false 0 t
  | [] => None
  end.
(** int of any text: the spaces around it are ignored. *)
Definition python_int (t : text) : option Z := parse_int (strip t).

(** getenv, config.py 8-20, for a class whose values are read by [parse]; the second component tells whether there is a warning.
    [default] is already of the class. *)
Definition getenv {A} (parse : text -> option A) (default : A) (value : option text) : A * bool :=
  let val := strip (match value with Some t => t | None => [] end) in
  match val with
  | [] => (default, false)
  | _ => match parse val with Some a => (a, false) | None => (default, true) end
  end.
(** 13-15 for the classes int and bool; float is similar, with another function *)
Definition getenv_int : Z -> option text -> Z * bool := getenv python_int.
Definition getenv_bool : bool -> option text -> bool * bool := getenv (fun t => option_map (fun z => negb (z =? 0)) (python_int t)).

(** The number of threads of OpenMP and of MKL (None if the package mkl is not installed), the pools that are not closed, the number of pools
    so far, and what has been seen: the variable OMP_NUM_THREADS and the number of threads of MKL, or the size of a new pool. *)
Inductive event := Saw (o : option text) (k : option Z) | Pool (size : Z).
Record world := { omp : option text; mkl : option Z; live : list nat; opened : nat; log : list event }.

(** omp_num_threads, misc.py 724-728 *)
Definition omp_num_threads (cpus : Z) (s : world) : result Z :=
  match omp s with
  | Some t => match python_int t with Some n => Ok n | None => Raise ValueError end
  | None => Ok cpus
  end.

(** What a program does: look at the numbers of threads, change OMP_NUM_THREADS or the number of threads of MKL, raise an exception, catch the
    exceptions of a part, or use a pool. *)
Inductive block :=
| Skip | Look | SetOmp (o : option text) | SetMkl (n : Z) | Fail | Try (p : block) | Seq (p q : block)
| Threads (n : option Z) (p : block).

Definition set_omp (o : option text) (s : world) : world :=
  {| omp := o; mkl := mkl s; live := live s; opened := opened s; log := log s |}.
Definition set_mkl (n : Z) (s : world) : world :=
  {| omp := omp s; mkl := option_map (fun _ => n) (mkl s); live := live s; opened := opened s; log := log s |}.
Definition see (e : event) (s : world) : world :=
  {| omp := omp s; mkl := mkl s; live := live s; opened := opened s; log := log s ++ [e] |}.
(** multiprocessing.dummy.Pool(n), and pool.close() followed by pool.join() *)
Definition open_pool (n : Z) (s : world) : world :=
  {| omp := omp s; mkl := mkl s; live := opened s :: live s; opened := S (opened s); log := log s ++ [Pool n] |}.
Definition close_pool (id : nat) (s : world) : world :=
  {| omp := omp s; mkl := mkl s; live := filter (fun i => negb (Nat.eqb i id)) (live s); opened := opened s; log := log s |}.

(** pool_threading, misc.py 752-783: no try protects the yield, so that nothing after it is executed if the block raises. *)
Fixpoint exec (cpus : Z) (p : block) (s : world) : world * option exn :=
  match p with
  | Skip => (s, None)
  | Look => (see (Saw (omp s) (mkl s)) s, None)
  | SetOmp o => (set_omp o s, None)
  | SetMkl n => (set_mkl n s, None)
  | Fail => (s, Some RuntimeError)
  | Try p => (fst (exec cpus p s), None)
  | Seq p q => match exec cpus p s with (s', None) => exec cpus q s' | r => r end
  | Threads n p =>
      match (match n with Some n => Ok n | None => omp_num_threads cpus s end) with
      | Raise e => (s, Some e)
      | Ok nthreads =>
          let old_mkl := mkl s in
          let s1 := set_mkl 1 s in
          let old_omp := omp s1 in
          let s2 := set_omp (Some (lit "1")) s1 in
          if nthreads <? 1 then (s2, Some ValueError)
          else
            let id := opened s2 in
            match exec cpus p (open_pool nthreads s2) with
            | (s3, Some e) => (s3, Some e)
            | (s3, None) =>
                let s4 := close_pool id s3 in
                let s5 := match old_mkl with Some k => set_mkl k s4 | None => s4 end in
                match old_omp with
                | Some t => (set_omp (Some t) s5, None)
                | None => match omp s5 with Some _ => (set_omp None s5, None) | None => (s5, Some KeyError) end
                end
            end
      end
  end.
