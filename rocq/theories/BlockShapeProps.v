(** C15 for block operators. *)
From Verif Require Import Base SeqModel BlockModel BlockSpec BlockShapeModel BlockShapeSpec BlockShapeProofs.

(** If each block turns the shape of its piece of the input into the shape of its piece of the output then the block
    operator turns the shape of the input into the shape of the output.  The sizes of the input pieces must be known,
    those of the output pieces may be missing. *)
Theorem C15_block : forall (ks : list bshape) pin pout axin axout pi po si so, ks <> [] ->
  side_ok pin pi axin si -> (axin <> None -> pin = Some (map Some pi) /\ length ks = length pi) ->
  side_ok pout po axout so -> (axout <> None -> length ks = length po) ->
  (forall k b, nth_error ks k = Some b -> b_reshapein b (piece_shape axin pi k si) = Ok (piece_shape axout po k so)) ->
  block_reshapein ks pin pout axin axout (Some si) = Ok (Some so).
Proof. exact block_shape. Qed.
(** Two blocks along the last axis, the first one doubling it, the second one keeping it; the second output size unknown. *)
Definition twice : bshape := BS None (fun s => Ok (removelast s ++ [2 * last s 0])).
Definition keep : bshape := BS None (fun s => Ok s).
Example C15_block_example : block_reshapein [twice; keep] (Some [Some 3; Some 5]) (Some [Some 6; None]) (Some (Axis (-1))) (Some (Axis 1)) (Some [4; 8])
  = Ok (Some [4; 11]).
Proof.
  apply (C15_block _ _ _ _ _ [3; 5] [6; 5]).
  - discriminate.
  - exists [Some 3; Some 5], 1. split; [reflexivity|]. split; [|split; reflexivity]. repeat (apply Forall2_cons; [right; reflexivity|]). apply Forall2_nil.
  - intros _. split; reflexivity.
  - exists [Some 6; None], 1. split; [reflexivity|]. split; [|split; reflexivity]. apply Forall2_cons; [right; reflexivity|]. apply Forall2_cons; [left; reflexivity|]. apply Forall2_nil.
  - reflexivity.
  - intros [|[|[|k]]] b [= <-]; reflexivity.
Qed.
(** A column along a new axis. *)
Example C15_block_column : block_reshapein [keep; keep; keep] None (Some [Some 1; Some 1; Some 1]) None (Some (NewAxis (-1))) (Some [4; 8]) = Ok (Some [4; 8; 3]).
Proof.
  apply (C15_block _ _ _ _ _ [] [1; 1; 1]).
  - discriminate.
  - reflexivity.
  - congruence.
  - exists [Some 1; Some 1; Some 1], 2. split; [reflexivity|]. split; [|split; reflexivity]. repeat (apply Forall2_cons; [right; reflexivity|]). apply Forall2_nil.
  - reflexivity.
  - intros [|[|[|[|k]]]] b [= <-]; reflexivity.
Qed.
Print Assumptions C15_block.
