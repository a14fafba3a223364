(** Independent vocabulary for the dense operators. *)
From Verif Require Import Base Algebra SeqSpec BlockModel BlockSpec DiagModel DiagSpec DenseModel.

(** The blocks of an operator: as many as indices of [sl], each of them maps arrays of shape [sn] to arrays of shape [sm].  There are no extra axes in the
    class DenseOperator. *)
Definition blocks {K : cring} (op : dense K) (sl sm sn : list nat) : Prop :=
  ashape (d_data op) = sl ++ sm ++ sn /\ d_extra op = length sl /\ d_out op = length sm /\ d_in op = length sn /\ 1 <= length sm /\ 1 <= length sn /\
  (d_class op = Dense -> sl = []).
(** The arrays are seen as an array of shape [p], one element per block, of arrays to be multiplied, and each element of these may be an array of shape [q] for a
    rightward broadcast. *)
Definition batched (b : bcast) (e : nat) (p q : list nat) : Prop :=
  match b with
  | Leftward => q = []
  | Rightward => length p = e \/ (length p < e /\ q = [])
  | _ => q = [] /\ length p <= e
  end.
(** the common shape of two arrays *)
Definition common (a b r : list nat) : Prop := compatible [a; b] /\ is_broadcast [a; b] r.

Section Spec.
Context {K : cring}.
(** y = A x, block by block; [p] is the batch shape of x and [r] the one of y *)
Definition is_image (data : array K) (sl sm sn p q r : list nat) (x y : array K) : Prop :=
  ashape x = p ++ sn ++ q /\ ashape y = r ++ sm ++ q /\
  forall ir im iq, inside r ir -> inside sm im -> inside q iq ->
  aval y (ir ++ im ++ iq) =
  lsum (map (fun jn => rmul (aval data (facing Leftward sl ir ++ im ++ jn)) (aval x (facing Leftward p ir ++ jn ++ iq))) (indices sn)).
End Spec.
