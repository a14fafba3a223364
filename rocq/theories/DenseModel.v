(** Dense operators, /repo/src/pyoperators/linear.py 95-511.  Numbers are elements of a ring; the flags, the dtypes and the
    copies made for arrays that are not contiguous are left out. *)
From Verif Require Import Base Algebra SeqModel BlockModel BlockSpec DiagModel RedModel.

(** The class of the operator: Rotation2dOperator and Rotation3dOperator derive from DenseBlockDiagonalOperator, and so does
    DenseOperator. *)
Inductive class := BlockDiagonal | Dense | Rotation2d | Rotation3d.
Record dense (K : Type) := D { d_data : array K; d_in : nat; d_out : nat; d_extra : nat; d_bcast : bcast; d_class : class }.
Arguments D {K}. Arguments d_data {K}. Arguments d_in {K}. Arguments d_out {K}. Arguments d_extra {K}. Arguments d_bcast {K}. Arguments d_class {K}.

(** The last n elements and the others *)
Definition last_n {A} (n : nat) (l : list A) : list A := skipn (length l - n) l.
Definition but_last {A} (n : nat) (l : list A) : list A := firstn (length l - n) l.

Section Dense.
Context {K : cring}.
(** The numbers of axes, 113-151, for an array of ndim >= 2 dimensions.  The class becomes DenseOperator if there is no extra axis (the keyword naxesextra is
    only given by DenseOperator itself). *)
Definition make_axes (ndim : nat) (naxes naxesin naxesout naxesextra : option nat) : result (nat * nat * nat) :=
  if match naxes with Some n => (n <? 1) || (ndim <? 2 * n) | None => false end then Raise ValueError
  else
    pq <- match naxesin, naxesout with
          | None, None => let n := match naxes with Some n => n | None => 1 end in Ok (Some n, Some n)
          | None, Some o => if (o <? 1) || (ndim <=? o) then Raise ValueError
                            else Ok (match naxesextra with Some e => Some (ndim - e - o) | None => None end, Some o)
          | Some i, None => if (i <? 1) || (ndim <=? i) then Raise ValueError
                            else Ok (Some i, match naxesextra with Some e => Some (ndim - e - i) | None => None end)
          | Some i, Some o => Ok (Some i, Some o)
          end ;;
    match pq with
    | (Some i, Some o) =>
        let e := match naxesextra with Some e => e | None => ndim - i - o end in
        if i + o + e =? ndim then Ok (i, o, e) else Raise ValueError
    | _ => Raise ValueError
    end.
(** DenseBlockDiagonalOperator(data, naxes, naxesin, naxesout, broadcast=broadcast), from an array of 2 dimensions or more *)
Definition block_diagonal (data : array K) (naxes naxesin naxesout : option nat) (b : bcast) : result (dense K) :=
  axes <- make_axes (length (ashape data)) naxes naxesin naxesout None ;;
  let '(i, o, e) := axes in
  Ok (D data i o e b (if e =? 0 then Dense else BlockDiagonal)).
(** DenseOperator(data, naxes, naxesin, naxesout, broadcast) *)
Definition dense_operator (data : array K) (naxes naxesin naxesout : option nat) (b : bcast) : result (dense K) :=
  axes <- make_axes (length (ashape data)) naxes naxesin naxesout (Some 0) ;;
  let '(i, o, e) := axes in
  Ok (D data i o e b Dense).

(** _sl, _sm, _sn, _m, _n and _data, 157-165 *)
Definition d_sl (op : dense K) : list nat := firstn (d_extra op) (ashape (d_data op)).
Definition d_sm (op : dense K) : list nat := but_last (d_in op) (last_n (d_in op + d_out op) (ashape (d_data op))).
Definition d_sn (op : dense K) : list nat := last_n (d_in op) (ashape (d_data op)).
Definition d_matrix (op : dense K) : result (array K) := reshape (d_data op) (d_sl op ++ [prod (d_sm op); prod (d_sn op)]).

(** ** numpy *)

(** The index of the array of batch shape [s] used for the index [idx] of the broadcast batch *)
Definition batch (s idx : list nat) : list nat := rev (clip (rev s) (rev idx)).
(** np.einsum('...mn,...n->...m', a, x, out).  The sizes n must be the same (einsum accepts 1 too, which the checks done before exclude). *)
Definition einsum_mn_n (a x : array K) (out : list nat) : result (array K) :=
  let sa := but_last 2 (ashape a) in let sx := but_last 1 (ashape x) in
  match last_n 2 (ashape a), last_n 1 (ashape x) with
  | [m; n], [n'] =>
      if n =? n' then
        b <- bc (rev sa) (rev sx) ;;
        if shape_eqb out (rev b ++ [m]) then
          Ok (Arr out (fun idx => let ib := but_last 1 idx in let im := last_n 1 idx in
            sum n (fun j => rmul (aval a (batch sa ib ++ im ++ [j])) (aval x (batch sx ib ++ [j])))))
        else Raise ValueError
      else Raise ValueError
  | _, _ => Raise ValueError
  end.
(** np.einsum('...mn,...np->...mp', a, x, out) *)
Definition einsum_mn_np (a x : array K) (out : list nat) : result (array K) :=
  let sa := but_last 2 (ashape a) in let sx := but_last 2 (ashape x) in
  match last_n 2 (ashape a), last_n 2 (ashape x) with
  | [m; n], [n'; p] =>
      if n =? n' then
        b <- bc (rev sa) (rev sx) ;;
        if shape_eqb out (rev b ++ [m; p]) then
          Ok (Arr out (fun idx => let ib := but_last 2 idx in let im := but_last 1 (last_n 2 idx) in let ip := last_n 1 idx in
            sum n (fun j => rmul (aval a (batch sa ib ++ im ++ [j])) (aval x (batch sx ib ++ [j] ++ ip)))))
        else Raise ValueError
      else Raise ValueError
  | _, _ => Raise ValueError
  end.
(** np.dot(x, a.T, out) and np.dot(a, x, out), for a matrix a (and a matrix x) *)
Definition dot_left (x a : array K) (out : list nat) : result (array K) :=
  match ashape a, last_n 1 (ashape x) with
  | [m; n], [n'] =>
      if (n =? n') && shape_eqb out (but_last 1 (ashape x) ++ [m]) then
        Ok (Arr out (fun idx => sum n (fun j => rmul (aval x (but_last 1 idx ++ [j])) (aval a (last_n 1 idx ++ [j])))))
      else Raise ValueError
  | _, _ => Raise ValueError
  end.
Definition dot_right (a x : array K) (out : list nat) : result (array K) :=
  match ashape a, ashape x with
  | [m; n], [n'; p] =>
      if (n =? n') && shape_eqb out [m; p] then
        Ok (Arr out (fun idx => sum n (fun j => rmul (aval a (firstn 1 idx ++ [j])) (aval x (j :: skipn 1 idx)))))
      else Raise ValueError
  | _, _ => Raise ValueError
  end.
(** np.rollaxis(a, -1, start) *)
Definition rollaxis {A} (a : array A) (start : nat) : array A :=
  let s := but_last 1 (ashape a) in
  Arr (firstn start s ++ last_n 1 (ashape a) ++ skipn start s)
      (fun idx => aval a (firstn start idx ++ skipn (S start) idx ++ firstn 1 (skipn start idx))).

(** ** direct *)

(** DenseBlockDiagonalOperator.direct, 275-302 *)
Definition bd_direct (op : dense K) (x : array K) (out : list nat) : result (array K) :=
  a <- d_matrix op ;;
  let m := prod (d_sm op) in let n := prod (d_sn op) in
  if match d_bcast op with Leftward => true | _ => false end || (length (ashape x) <=? d_extra op + d_in op) then
    x <- (if 1 <? d_in op then reshape x (but_last (d_in op) (ashape x) ++ [n]) else Ok x) ;;
    let out_ := if 1 <? d_out op then but_last (d_out op) out ++ [m] else out in
    y <- einsum_mn_n a x out_ ;;
    reshape y out
  else match d_bcast op with
    | Rightward =>
        x <- reshape x (firstn (d_extra op) (ashape x) ++ [n; prod (skipn (d_extra op + d_in op) (ashape x))]) ;;
        let out_ := if d_extra op + d_out op <? length out then firstn (d_extra op) out ++ [m; prod (skipn (d_extra op + d_out op) out)] else out in
        y <- einsum_mn_np a x out_ ;;
        reshape y out
    | _ => Raise NotImplementedError
    end.
(** DenseOperator.direct, 488-511 *)
Definition d_direct (op : dense K) (x : array K) (out : list nat) : result (array K) :=
  a <- d_matrix op ;;
  let m := prod (d_sm op) in let n := prod (d_sn op) in
  if match d_bcast op with Leftward => true | _ => false end || (length (ashape x) =? d_in op) then
    x <- (if 1 <? d_in op then reshape x (but_last (d_in op) (ashape x) ++ [n]) else Ok x) ;;
    let out_ := if 1 <? d_out op then but_last (d_out op) out ++ [m] else out in
    y <- dot_left x a out_ ;;
    reshape y out
  else match d_bcast op with
    | Rightward =>
        x <- reshape x [n; prod (skipn (d_in op) (ashape x))] ;;
        y <- dot_right a x [m; prod (skipn (d_out op) out)] ;;
        reshape y out
    | _ => Raise NotImplementedError
    end.
Definition direct (op : dense K) (x : array K) (out : list nat) : result (array K) :=
  match d_class op with Dense => d_direct op x out | _ => bd_direct op x out end.

(** reshapein, 304-315 *)
Definition reshapein (op : dense K) (s : list nat) : result (list nat) :=
  if match d_bcast op with Leftward => true | _ => false end || (length s <=? d_extra op + d_in op) then
    b <- broadcast_shapes [but_last (d_in op) s; d_sl op] ;; Ok (b ++ d_sm op)
  else match d_bcast op with
    | Rightward => b <- broadcast_shapes [firstn (d_extra op) s; d_sl op] ;; Ok (b ++ d_sm op ++ skipn (d_extra op + d_in op) s)
    | _ => Raise NotImplementedError
    end.
(** validatein, 330-363 *)
Definition validatein (op : dense K) (s : list nat) : result unit :=
  if length s <? d_in op then Raise ValueError
  else
    ln <- (if length s <=? d_extra op + d_in op then Ok (but_last (d_in op) s, last_n (d_in op) s)
           else match d_bcast op with
             | Leftward => Ok (but_last (d_in op) (last_n (d_extra op + d_in op) s), last_n (d_in op) s)
             | Rightward => Ok (firstn (d_extra op) s, firstn (d_in op) (skipn (d_extra op) s))
             | _ => Raise NotImplementedError
             end) ;;
    if shape_eqb (snd ln) (d_sn op) then
      _ <- broadcast_shapes [fst ln; d_sl op] ;; Ok tt
    else Raise ValueError.
(** The call of an operator whose shapes are not explicit *)
Definition call (op : dense K) (x : array K) : result (array K) :=
  _ <- validatein op (ashape x) ;;
  out <- reshapein op (ashape x) ;;
  direct op x out.

(** ** Rules *)

(** _rule_transpose, 400-407 *)
Fixpoint roll_axes (n start : nat) (a : array K) : array K := match n with O => a | S n => roll_axes n start (rollaxis a start) end.
Definition rule_T (op : dense K) : result (dense K) :=
  block_diagonal (roll_axes (d_in op) (d_extra op) (d_data op)) None (Some (d_out op)) (Some (d_in op)) (d_bcast op).
(** np.dot(a, b) for a matrix b, np.einsum('...ij,...jk->...ik', a, b) *)
Definition dot_matrix (a b : array K) : result (array K) :=
  match last_n 1 (ashape a), ashape b with
  | [n], [n'; p] =>
      if n =? n' then
        Ok (Arr (but_last 1 (ashape a) ++ [p]) (fun idx => sum n (fun j => rmul (aval a (but_last 1 idx ++ [j])) (aval b (j :: last_n 1 idx)))))
      else Raise ValueError
  | _, _ => Raise ValueError
  end.
Definition einsum_ij_jk (a b : array K) : result (array K) :=
  match bc (rev (but_last 2 (ashape a))) (rev (but_last 2 (ashape b))), last_n 2 (ashape a), last_n 2 (ashape b) with
  | Ok s, [m; _], [_; p] => einsum_mn_np a b (rev s ++ [m; p])
  | Raise e, _, _ => Raise e
  | _, _, _ => Raise ValueError
  end.
(** _rule_mul, 409-424 *)
Definition rule_mul (self other : dense K) : result (dense K) :=
  if shape_eqb (d_sn self) (d_sm other) then
    a <- d_matrix self ;; b <- d_matrix other ;;
    c <- (if d_extra other =? 0 then dot_matrix a b else einsum_ij_jk a b) ;;
    data <- reshape c (but_last 2 (ashape c) ++ d_sm self ++ d_sn other) ;;
    block_diagonal data None (Some (d_in other)) (Some (d_out self)) (d_bcast other)
  else Raise ValueError.
(** Rotation2dOperator(angle, naxesin=1, naxesout=1), 995-1013: the angles are turned into a cosine and a sine by [cs] *)
Definition rotation2d (cs : K -> K * K) (angle : array K) : result (dense K) :=
  let data := Arr (ashape angle ++ [2; 2]) (fun idx =>
    let cs := cs (aval angle (but_last 2 idx)) in
    match last_n 2 idx with [0; 0] | [1; 1] => fst cs | [0; 1] => ropp (snd cs) | _ => snd cs end) in
  op <- block_diagonal data None (Some 1) (Some 1) Leftward ;;
  Ok (D (d_data op) (d_in op) (d_out op) (d_extra op) (d_bcast op) match d_class op with Dense => Dense | _ => Rotation2d end).
(** _rule_homothety, 203-207: the class of the operator is called with the product of the data by the scalar.  Rotation2dOperator takes
    it as angles; the constructor of Rotation3dOperator lacks an argument. *)
Definition rule_homothety (cs : K -> K * K) (self : dense K) (c : K) : result (dense K) :=
  let data := Arr (ashape (d_data self)) (fun idx => rmul c (aval (d_data self) idx)) in
  match d_class self with
  | Dense => dense_operator data None (Some (d_in self)) (Some (d_out self)) Leftward
  | BlockDiagonal => block_diagonal data None (Some (d_in self)) (Some (d_out self)) Leftward
  | Rotation2d => rotation2d cs data
  | Rotation3d => Raise TypeError
  end.
End Dense.
