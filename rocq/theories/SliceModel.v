(** BlockSliceOperator, core.py 2066-2172, on flattened arrays: a slice is the list of the positions it selects. *)
From Verif Require Import Base Algebra EngineModel.

Section Slice.
Context {K : cring}.
(** An operand with its slice. *)
Definition block := (list nat * (list K -> list K))%type.
(** input[s] and the assignment of output[s] *)
Definition gather (s : list nat) (x : list K) : list K := map (fun i => nth i x r0) s.
Fixpoint scatter (s : list nat) (v : list K) (x : list K) : list K :=
  match s, v with
  | i :: s', a :: v' => scatter s' v' (set_at x i a)
  | _, _ => x
  end.
(** direct, 2135-2147, with distinct input and output: the input is copied, then each operand fills its slice. *)
Definition slice_direct (bs : list block) (x : list K) : list K :=
  fold_left (fun out b => scatter (fst b) (snd b (gather (fst b) x)) out) bs x.
(** The rule ('.', HomothetyOperator), 2125-2131: o.data * op for each operand. *)
Definition slice_homothety (d : K) (bs : list block) : list block :=
  map (fun b => (fst b, fun v => map (rmul d) (snd b v))) bs.
End Slice.
