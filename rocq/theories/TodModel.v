(** The dense matrix of an operator: Operator.todense, /repo/src/pyoperators/core.py 506-564. *)
From Verif Require Import Base Algebra BlockModel ShapeModel RedModel.

(** What todense uses of an operator, besides its shapes: the method direct, the flags inplace and aligned_output and the dtype.  The arrays are given by their elements in the
    C order.  [p_apart si so v o]: the contents of the input and of the output after direct(v.reshape(si), o.reshape(so)) for two separate arrays; [p_alias si so u]: the contents of u after
    direct(u[:n].reshape(si), u[:m].reshape(so)), n and m being the sizes of the shapes.  [p_cast] is the conversion of a number to the dtype of the arrays:
    self.dtype, or int if it is None (536). *)
Record mop (K : Type) := P {
  p_shapes : oper;
  p_apart : list nat -> list nat -> list K -> list K -> list K * list K;
  p_alias : list nat -> list nat -> list K -> list K;
  p_inplace : bool; p_aligned_output : bool; p_cast : K -> K }.
Arguments P {K}. Arguments p_shapes {K}. Arguments p_apart {K}. Arguments p_alias {K}. Arguments p_inplace {K}. Arguments p_aligned_output {K}. Arguments p_cast {K}.

(** v[i] = x *)
Fixpoint put {A} (v : list A) (i : nat) (x : A) : list A := match v, i with [], _ => [] | _ :: v, 0 => x :: v | a :: v, S i => a :: put v i x end.

Section Todense.
Context {K : cring}.
(** 541-545: o is the row of d, whose contents was [old]; the loop returns the rows of d.  v: the input *)
Fixpoint fill_rows (op : mop K) (si so : list nat) (old : nat -> list K) (is_ : list nat) (v : list K) : list (list K) :=
  match is_ with
  | [] => []
  | i :: is_ =>
      let (v, o) := p_apart op si so (put v i r1) (old i) in
      map (p_cast op) o :: fill_rows op si so old is_ (put v i r0)
  end.
(** 547-552: with the same buffer o for all the columns *)
Fixpoint copy_rows (op : mop K) (si so : list nat) (is_ : list nat) (v o : list K) : list (list K) :=
  match is_ with
  | [] => []
  | i :: is_ =>
      let (v, o) := p_apart op si so (put v i r1) o in
      map (p_cast op) o :: copy_rows op si so is_ (put v i r0) (map (p_cast op) o)
  end.
(** 556-563: v and w are the beginning of u *)
Fixpoint inplace_rows (op : mop K) (si so : list nat) (is_ : list nat) (u : list K) : list (list K) :=
  let n := prod si in let m := prod so in
  match is_ with
  | [] => []
  | i :: is_ =>
      let u := map (p_cast op) (p_alias op si so (put (repeat r0 n) i r1 ++ skipn n u)) in
      firstn m u :: inplace_rows op si so is_ u
  end.
(** todense(shapein, shapeout, inplace): the numbers of rows and columns and the rows of d, the result being d.T.  [junk]: the contents of the uninitialised rows of d;
    [junk_o], [junk_u]: the contents of the arrays o and u *)
Definition todense (op : mop K) (shapein shapeout : option (list nat)) (inplace : bool) (junk : nat -> list K) (junk_o junk_u : list K) : result (nat * nat * list (list K)) :=
  s <- validate_shapes (p_shapes op) shapein shapeout ;;
  match s with
  | (None, _) => Raise ValueError
  | (Some _, None) => Raise ValueError
  | (Some si, Some so) =>
      let m := prod so in let n := prod si in
      Ok (m, n,
          if negb inplace || negb (p_inplace op) then
            if negb (p_aligned_output op) then fill_rows op si so junk (seq 0 n) (repeat r0 n)
            else copy_rows op si so (seq 0 n) (repeat r0 n) junk_o
          else inplace_rows op si so (seq 0 n) junk_u)
  end.
(** The element (j, i) of d.T *)
Definition entry (d : list (list K)) (j i : nat) : K := nth j (nth i d []) r0.
End Todense.
