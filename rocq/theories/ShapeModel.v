(** Input and output shapes: core.py 286-318, 386-408, 1130-1254, 1301-1395, 1422-1468, 1961-2000, 2492-2530, 2643-2679,
    2681-2703 and 2751-2777. *)
From Verif Require Import Base.

Definition shape := list nat.
Definition shape_eqb (a b : shape) : bool := if list_eq_dec Nat.eq_dec a b then true else false.

(** What an initialised operator knows about shapes: shapein and shapeout when they are explicit, the methods reshapein
    and reshapeout when they are overridden (the default ones return shapeout and shapein), the methods validatein and
    validateout (true: no exception) and the flag square. *)
Record oper := O {
  o_in : option shape; o_out : option shape;
  o_rin : option (shape -> result shape); o_rout : option (shape -> result shape);
  o_vin : shape -> bool; o_vout : shape -> bool; o_square : bool }.

(** The flags shape_input and shape_output, 1231-1245 *)
Inductive kind := Explicit | Implicit | Unconstrained.
Definition kind_of (s : option shape) (r : option (shape -> result shape)) : kind :=
  match s, r with Some _, _ => Explicit | None, Some _ => Implicit | None, None => Unconstrained end.
Definition kind_in (op : oper) := kind_of (o_in op) (o_rout op).
Definition kind_out (op : oper) := kind_of (o_out op) (o_rin op).

Definition rsome (r : result shape) : result (option shape) := s <- r ;; Ok (Some s).

(** op.reshapein(s), op.reshapeout(s): the overridden method, or Operator.reshapein 286-302 and reshapeout 304-320. *)
Definition reshapein (op : oper) (s : shape) : result (option shape) :=
  match o_rin op with Some f => rsome (f s) | None => Ok (o_out op) end.
Definition reshapeout (op : oper) (s : shape) : result (option shape) :=
  match o_rout op with Some f => rsome (f s) | None => Ok (o_in op) end.

Definition validate (v : shape -> bool) (s : option shape) : result unit :=
  match s with Some s => if v s then Ok tt else Raise ValueError | None => Ok tt end.

(** The keywords of Operator.__init__ *)
Record raw := R {
  r_in : option shape; r_out : option shape;
  r_rin : option (shape -> result shape); r_rout : option (shape -> result shape);
  r_vin : option (shape -> bool); r_vout : option (shape -> bool); r_square : bool }.

(** Operator.validatein, 386-396 *)
Definition default_valid (known : option shape) : shape -> bool :=
  fun s => match known with Some k => shape_eqb k s | None => true end.
Definition valid (v : option (shape -> bool)) (known : option shape) : shape -> bool :=
  match v with Some v => v | None => default_valid known end.
Definition id_shape : shape -> result shape := fun s => Ok s.

(** Operator._init_inout, 1189-1254 (the attributes, classes and communicators are left out) *)
Definition init (r : raw) : result oper :=
  so <- match r_in r with
        | None => Ok (r_out r)
        | Some s =>
            t <- match r_rin r with Some f => rsome (f s) | None => Ok (r_out r) end ;;
            match r_out r with
            | None => Ok t
            | Some _ => _ <- validate (valid (r_vout r) (r_out r)) t ;; Ok (r_out r)
            end
        end ;;
  si <- match so with
        | None => Ok (r_in r)
        | Some t =>
            s <- match r_rout r with Some f => rsome (f t) | None => Ok (r_in r) end ;;
            match r_in r with
            | None => Ok s
            | Some _ => _ <- validate (valid (r_vin r) (r_in r)) s ;; Ok (r_in r)
            end
        end ;;
  _ <- validate (valid (r_vin r) si) si ;;
  _ <- validate (valid (r_vout r) so) so ;;
  let square := match si, so with Some s, Some t => shape_eqb s t | _, _ => r_square r end in
  let si' := if square then match si with None => so | _ => si end else si in
  let so' := if square then match si with None => so | _ => si end else so in
  let rin := if square then Some id_shape else r_rin r in
  let rout := if square then Some id_shape else r_rout r in
  let vin := valid (r_vin r) si' in
  let vout := if square then vin else valid (r_vout r) so' in
  Ok (O si' so'
        (match so' with Some _ => None | None => rin end)
        (match si' with Some _ => None | None => rout end)
        (match si' with Some _ => default_valid si' | None => vin end)
        (match so' with Some _ => default_valid so' | None => vout end)
        square).

Definition first_known (a b : option shape) : option shape := match a with Some _ => a | None => b end.
Definition conflict (a b : option shape) : bool :=
  match a, b with Some s, Some t => negb (shape_eqb s t) | _, _ => false end.

(** Operator._validate_shapes, 1422-1468 *)
Definition validate_shapes (op : oper) (shapein shapeout : option shape) : result (option shape * option shape) :=
  _ <- validate (o_vin op) shapein ;;
  so <- match kind_out op, shapein with
        | Explicit, _ => Ok (o_out op)
        | Unconstrained, _ | _, None => Ok None
        | Implicit, Some s => t <- reshapein op s ;; _ <- validate (o_vout op) t ;; Ok t
        end ;;
  _ <- validate (o_vout op) shapeout ;;
  si <- match kind_in op, shapeout with
        | Explicit, _ => Ok (o_in op)
        | Unconstrained, _ | _, None => Ok None
        | Implicit, Some t => s <- reshapeout op t ;; _ <- validate (o_vin op) s ;; Ok s
        end ;;
  if conflict shapein si then Raise ValueError
  else if conflict shapeout so then Raise ValueError
  else Ok (first_known shapein si, first_known shapeout so).

(** The shape of the output when op is called on an array of shape [s], _validate_arguments 1373-1394.  [out] is the
    shape of the output if there is one. *)
Definition call_shape (op : oper) (s : shape) (out : option shape) : result shape :=
  r <- validate_shapes op (Some s) out ;;
  match out with
  | Some t => Ok t
  | None =>
      match kind_in op, kind_out op with
      | Implicit, Unconstrained => Raise ValueError
      | _, _ => match snd r with Some t => Ok t | None => Ok s end
      end
  end.

(** ** Products *)

(** CompositionOperator._get_shapes, 2643-2679: the shapes, from the output of the product to its input.  The first
    loop is [inward] (it also compares the first element with the given output shape), the second one [outward].  The
    order in which different exceptions would be raised is not kept. *)
Definition step_in (op : oper) (cur : option shape) : result (option shape) :=
  match cur with None => Ok (o_out op) | Some s => reshapein op s end.
Definition step_out (op : oper) (cur : option shape) : result (option shape) :=
  match cur with None => Ok (o_in op) | Some s => reshapeout op s end.

Fixpoint inward (ops : list oper) (shapein : option shape) : result (list (option shape)) :=
  match ops with
  | [] => Ok [shapein]
  | op :: ops' => r <- inward ops' shapein ;; s <- step_in op (hd None r) ;; Ok (s :: r)
  end.
Fixpoint outward (ops : list oper) (cur : option shape) (rest : list (option shape)) : result (list (option shape)) :=
  match ops, rest with
  | op :: ops', next :: rest' =>
      s <- step_out op cur ;;
      if conflict next s then Raise ValueError
      else r <- outward ops' (first_known s next) rest' ;; Ok (first_known s next :: r)
  | _, _ => Ok []
  end.
Definition get_shapes (shapein shapeout : option shape) (ops : list oper) : result (list (option shape)) :=
  r <- inward ops shapein ;;
  match r with
  | [] => Ok []
  | s :: r' =>
      if conflict shapeout s then Raise ValueError
      else r'' <- outward ops (first_known s shapeout) r' ;; Ok (first_known s shapeout :: r'')
  end.

(** _merge_reshapein, 2751-2763, and _merge_reshapeout, 2765-2777; [tointtuple] of a shape is the shape. *)
Definition is_implicit (k : kind) : bool := match k with Implicit => true | _ => false end.
Definition apply_reshape (f : option (shape -> result shape)) (s : shape) : result shape :=
  match f with Some f => f s | None => Raise TypeError end.
Definition merge_reshapein (ops : list oper) : option (shape -> result shape) :=
  if negb (forallb (fun o => is_implicit (kind_out o)) ops) then None
  else if forallb o_square ops then o_rin (last ops (O None None None None (fun _ => true) (fun _ => true) false))
  else Some (fun s => fold_right (fun o acc => s <- acc ;; apply_reshape (o_rin o) s) (Ok s) ops).
Definition merge_reshapeout (ops : list oper) : option (shape -> result shape) :=
  if negb (forallb (fun o => is_implicit (kind_in o)) ops) then None
  else if forallb o_square ops then match ops with o :: _ => o_rout o | [] => None end
  else Some (fun s => fold_left (fun acc o => s <- acc ;; apply_reshape (o_rout o) s) ops (Ok s)).

(** CompositionOperator([...]): _get_attributes 2681-2703, then Operator.__init__ *)
Definition compose (ops : list oper) : result oper :=
  match ops with
  | [] => Raise ValueError
  | first :: _ =>
      let final := last ops first in
      shapes <- get_shapes (o_in final) (o_out first) ops ;;
      init (R (last shapes None) (hd None shapes) (merge_reshapein ops) (merge_reshapeout ops)
              (Some (o_vin final)) (Some (o_vout first)) (forallb o_square ops))
  end.

(** The shapes used when the product is applied to an array of shape [s] with an output of shape [t]: _get_info
    2539-2545. *)
Fixpoint all_known (l : list (option shape)) : option (list shape) :=
  match l with
  | [] => Some []
  | Some s :: l' => option_map (cons s) (all_known l')
  | None :: _ => None
  end.
Definition run_shapes (ops : list oper) (s t : shape) : result (list shape) :=
  l <- get_shapes (Some s) (Some t) ops ;;
  match all_known l with Some l => Ok l | None => Raise ValueError end.

(** ** Sums and element-wise products *)

(** CommutativeCompositeOperator._merge_shape 1988-1999, _merge_reshapein 1967-1975, _merge_reshapeout 1977-1985; the
    attributes 1937-1955; the sum is square when one of its operands is (2030 and 2060). *)
Definition merge_shape (l : list (option shape)) : result (option shape) :=
  match flat_map (fun s => match s with Some s => [s] | None => [] end) l with
  | [] => Ok None
  | s :: l' => if existsb (fun t => negb (shape_eqb t s)) l' then Raise ValueError else Ok (Some s)
  end.
Definition first_implicit (kind_ : oper -> kind) (f : oper -> option (shape -> result shape)) (ops : list oper)
    : option (shape -> result shape) :=
  if existsb (fun o => match kind_ o with Explicit => true | _ => false end) ops then None
  else match filter (fun o => is_implicit (kind_ o)) ops with o :: _ => f o | [] => None end.
Definition add_shapes (ops : list oper) : result oper :=
  match ops with
  | [] => Raise ValueError
  | first :: _ =>
      si <- merge_shape (map o_in ops) ;;
      so <- merge_shape (map o_out ops) ;;
      init (R si so (first_implicit kind_out o_rin ops) (first_implicit kind_in o_rout ops)
              (Some (o_vin first)) (Some (o_vout first)) (existsb o_square ops))
  end.
