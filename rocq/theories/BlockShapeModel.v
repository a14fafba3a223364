(** The shapes of block operators: core.py 3262-3330 and 3369-3395. *)
From Verif Require Import Base SeqModel BlockModel.

(** shape[:a] and shape[a:] for a Python tuple *)
Definition py_prefix (l : list nat) (a : Z) : list nat := firstn (py_pos l a) l.
Definition py_suffix (l : list nat) (a : Z) : list nat := skipn (py_pos l a) l.
(** del shape_[a] *)
Definition py_del (l : list nat) (a : Z) : result (list nat) :=
  let i := if (0 <=? a)%Z then a else (a + Z.of_nat (length l))%Z in
  if (i <? 0)%Z || (Z.of_nat (length l) <=? i)%Z then Raise IndexError
  else Ok (firstn (Z.to_nat i) l ++ skipn (S (Z.to_nat i)) l).

Definition is_none {T} (x : option T) : bool := match x with None => true | Some _ => false end.

(** BlockOperator._get_shape_operands, 3313-3330; [other] is the number of blocks. *)
Definition get_shape_operands (sh : option (list nat)) (partition : option (list (option nat))) (other : nat) (ax : option axis)
    : result (list (option (list nat))) :=
  match partition, ax with
  | Some p, Some ax =>
      match sh with
      | None => Ok (repeat None (length p))
      | Some s =>
          if existsb is_none p then Ok (repeat None (length p))
          else match ax with
               | NewAxis a => s' <- py_del s a ;; Ok (repeat (Some s') (length p))
               | Axis a => rmap (fun n => s' <- py_set s a (match n with Some n => n | None => 0 end) ;; Ok (Some s')) p
               end
      end
  | _, _ => Ok (repeat sh other)
  end.

(** BlockOperator._get_shape_composite, 3262-3311 *)
Fixpoint explicits (shapes : list (option (list nat))) : list (list nat) :=
  match shapes with [] => [] | Some s :: l => s :: explicits l | None :: l => explicits l end.
Fixpoint axis_ok (shapes : list (option (list nat))) (p : list (option nat)) (a : Z) : result bool :=
  match shapes, p with
  | s :: shapes', n :: p' =>
      b <- match s, n with Some s, Some n => m <- py_nth s a ;; Ok (Nat.eqb m n) | _, _ => Ok true end ;;
      r <- axis_ok shapes' p' a ;;
      Ok (b && r)
  | _, _ => Ok true
  end.
Definition dims_ok (explicit : list (list nat)) (sh : list nat) (a : Z) : bool :=
  forallb (fun i => Nat.eqb i (py_pos sh a) || forallb (fun s => Nat.eqb (nth i s 0) (nth i sh 0)) explicit) (seq 0 (length sh)).
Definition get_shape_composite (shapes : list (option (list nat))) (p : option (list (option nat))) (ax : option axis)
    : result (option (list nat)) :=
  match explicits shapes with
  | [] => Ok None
  | sh :: rest =>
      let explicit := sh :: rest in
      let differ := existsb (fun s => negb (shape_eqb s sh)) explicit in
      match p, ax with
      | Some p, Some (NewAxis a) =>
          if differ then Raise ValueError
          else
            let a' := if (a <? 0)%Z then (a + Z.of_nat (length sh) + 1)%Z else a in
            Ok (Some (py_prefix sh a' ++ length p :: py_suffix sh a'))
      | Some p, Some (Axis a) =>
          if existsb (fun s => negb (Nat.eqb (length s) (length sh))) explicit then Raise ValueError
          else
            b <- axis_ok shapes p a ;;
            if negb b then Raise ValueError
            else if negb (Nat.eqb (length explicit) 1) && negb (dims_ok explicit sh a) then Raise ValueError
            else
              sizes <- rmap (fun s => match s with Some s => n <- py_nth s a ;; Ok (Some n) | None => Ok None end) shapes ;;
              p' <- merge_none nat none_eqb (Some p) (Some sizes) ;;
              match p' with
              | None => Ok None
              | Some p' =>
                  if existsb is_none p' then Ok None
                  else s <- py_set sh a (list_sum (map (fun n => match n with Some n => n | None => 0 end) p')) ;; Ok (Some s)
              end
      | _, _ => if differ then Raise ValueError else Ok (Some sh)
      end
  end.

(** What is used of the blocks: shapeout and reshapein. *)
Record bshape := BS { b_out : option (list nat); b_reshapein : list nat -> result (list nat) }.

(** BlockOperator.reshapein, 3369-3379 (reshapeout, 3381-3395, is the same with the sides exchanged) *)
Definition block_reshapein (ks : list bshape) (pin pout : option (list (option nat))) (axin axout : option axis) (shapein : option (list nat))
    : result (option (list nat)) :=
  let other := match pout with Some p => length p | None => length ks end in
  shapeins <- get_shape_operands shapein pin other axin ;;
  shapeouts <- rmap (fun ks => match snd ks with None => Ok (b_out (fst ks)) | Some s => t <- b_reshapein (fst ks) s ;; Ok (Some t) end)
                 (combine ks shapeins) ;;
  get_shape_composite shapeouts pout axout.
