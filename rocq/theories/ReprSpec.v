(** Python's way of binding the arguments of a call to the parameters of a function (reference manual, Calls): see C70. *)
From Coq Require Import List Bool String.
From Verif Require Import Base ReprModel.
Import ListNotations.

(** The arguments of a call: positional ones have no name.  They come first, otherwise the text is not Python. *)
Definition call := list (option string * value).
Fixpoint keywords_only (c : call) : bool := match c with [] => true | (None, _) :: _ => false | (Some _, _) :: c => keywords_only c end.
Fixpoint well_formed (c : call) : bool := match c with [] => true | (None, _) :: c => well_formed c | (Some _, _) :: c => keywords_only c end.
Definition positionals (c : call) : list value := flat_map (fun a => match fst a with None => [snd a] | Some _ => [] end) c.
Definition keyword (c : call) (n : string) : option value :=
  match find (fun a => match fst a with Some m => String.eqb n m | None => false end) c with Some a => Some (snd a) | None => None end.
Definition keyword_names (c : call) : list string := flat_map (fun a => match fst a with None => [] | Some n => [n] end) c.

(** The binding of parameters that are not variadic: None for TypeError.  A parameter takes the next positional argument, else its keyword, else its default. *)
Fixpoint fill (ps : list parameter) (pos : list value) (kw : string -> option value) : option (list (string * value)) :=
  match ps with
  | [] => match pos with [] => Some [] | _ => None end
  | (n, k) :: ps =>
      match pos, kw n, k with
      | v :: pos, None, _ => option_map (cons (n, v)) (fill ps pos kw)
      | _ :: _, Some _, _ => None
      | [], Some v, _ => option_map (cons (n, v)) (fill ps [] kw)
      | [], None, Default d => option_map (cons (n, d)) (fill ps [] kw)
      | [], None, _ => None
      end
  end.
Definition is_variadic (p : parameter) : bool := match snd p with Variadic => true | _ => false end.
(** [accepts_any]: the function has **keywords, which takes the keywords that are not parameters. *)
Definition bind (ps : list parameter) (c : call) : option (list (string * value)) :=
  let named := filter (fun p => negb (is_variadic p)) ps in
  let known := forallb (fun n => mem n named) (keyword_names c) in
  if well_formed c && (known || existsb is_variadic ps) then fill named (positionals c) (keyword c) else None.

(** A Python signature: names are different and required parameters come first. *)
Fixpoint defaults_only (ps : list parameter) : bool := match ps with [] => true | (_, Default _) :: ps => defaults_only ps | _ => false end.
Fixpoint ordered (ps : list parameter) : bool := match ps with [] => true | (_, Required) :: ps => ordered ps | ps => defaults_only ps end.
Definition is_signature (ps : list parameter) : Prop := NoDup (map fst ps) /\ ordered ps = true.

(** The text of an operator, as a call *)
Definition text_call same is_ (o : operator) : call := map (fun a => (fst a, snd (snd a))) (arguments same is_ o).
(** [v] is not distinguished from the default [d] *)
Definition stands_for (same : value -> value -> result bool) (is_ : value -> value -> bool) (d v : value) : Prop :=
  same v d = Ok true \/ (exists e, same v d = Raise e) /\ is_ v d = true.
