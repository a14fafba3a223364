(** The conjugates, transposes, adjoints and inverses of sums, products and groups of operators: the rules of core.py that
    AdditionOperator, CompositionOperator and GroupOperator set, used by [_generate_associated_operators] (AssocModel.v). *)
From Verif Require Import Base FlagsModel AssocModel.

Inductive composite := Sum | Product | Group (switch : bool).

(** A rule of the composite operators builds an operator of the same class from associated operators of the operands: the
    attributes that are read on each operand, and whether the order of the operands is reversed. *)
Definition recipe := option (list attr * bool).

(** AdditionOperator.__init__, 2018-2020 *)
Definition sum_rule (r : assoc) : recipe :=
  match r with
  | aC => Some ([AC], false)
  | aT => Some ([AT], false)
  | aH => Some ([AH], false)
  | _ => None
  end.
(** CompositionOperator.__init__, 2297-2311 *)
Definition product_rule (r : assoc) : recipe :=
  match r with
  | aC => Some ([AC], false)
  | aT => Some ([AT], true)
  | aH => Some ([AH], true)
  | aI => Some ([AI], true)
  | aIC => Some ([AI; AC], true)
  | aIT => Some ([AI; AT], false)
  | aIH => Some ([AI; AH], false)
  end.
(** GroupOperator.__init__, 2838-2886: these rules replace those of the product.  [switch] is the variable switch_T_H: the group
    is real and the operands have a complex data type; the letters T and H of the rules are then exchanged. *)
Definition group_rule (switch : bool) (r : assoc) : recipe :=
  let r := if switch then match r with aT => aH | aH => aT | aIT => aIH | aIH => aIT | r => r end else r in
  match r with
  | aC => Some ([AC], false)
  | aT => Some ([AT], true)
  | aH => Some ([AH], true)
  | aI => Some ([AI], true)
  | aIC => Some ([AI; AC], true)
  | aIT => Some ([AI; AT], false)
  | aIH => Some ([AI; AH], false)
  end.
Definition composite_rule (k : composite) : assoc -> recipe :=
  match k with Sum => sum_rule | Product => product_rule | Group switch => group_rule switch end.

(** The flags of the composites: _merge_flags and _init_flags, with the flags of the operands.  [complex]: the data type of the
    composite is complex.  CompositionOperator has the decorator inplace, which does not matter here. *)
Definition composite_flags (k : composite) (complex : bool) (operands : list flags) : result flags :=
  d <- match k with Sum => Ok (merge_flags_addition operands) | _ => merge_flags_composition operands end ;;
  init_flags default_flags (DDict d) complex None.

(** The table of the associated operators: the composites have rules, and no method beside direct. *)
Definition composite_table (k : composite) (f : flags) : table :=
  generate f (fun r => match composite_rule k r with Some _ => true | None => false end) (fun _ => false).
