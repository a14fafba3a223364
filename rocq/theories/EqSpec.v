(** Equal values, up to the tolerance on the numbers *)
From Coq Require Import String QArith Qabs.
From Verif Require Import Base EqModel.
Local Open Scope nat_scope.
Local Open Scope list_scope.

(** The numbers x and y are equal, up to 1e-8 + 1e-5 |y| *)
Definition close (x y : num) : Prop :=
  match x, y with
  | Fin x, Fin y => (Qabs (x - y) <= (1 # 100000000) + (1 # 100000) * Qabs y)%Q
  | PInf, PInf | NInf, NInf => True
  | _, _ => False
  end.
(** i is a multi-index of an array of shape s *)
Definition inside (i s : list nat) : Prop := Forall2 lt i s.
Definition same_keys (l l' : list (string * value)) : Prop := forall k, In k (map fst l) <-> In k (map fst l').
(** The cached attributes of an operator *)
Definition cached (k : string) : Prop := In k ["rules"; "_C"; "_T"; "_H"; "_I"; "_D"]%string.
Definition attributes (l : list (string * value)) : list (string * value) := filter (fun p => if in_dec string_dec (fst p) ["rules"; "_C"; "_T"; "_H"; "_I"; "_D"]%string then false else true) l.

(** Same objects, or same structures with close numbers; arrays are compared with broadcasting *)
Inductive similar : value -> value -> Prop :=
  | sim_same i c c' : similar (V i c) (V i c')
  | sim_map i j ty l l' : same_keys l l' -> (forall k v w, lookup k l = Some v -> lookup k l' = Some w -> similar v w) -> similar (V i (CMap ty l)) (V j (CMap ty l'))
  | sim_str i j s : similar (V i (CStr s)) (V j (CStr s))
  | sim_num i j a b A B s : floating a = true \/ floating b = true -> as_array a = Some A -> as_array b = Some B -> bshape (a_shape A) (a_shape B) = Some s -> (forall k, inside k s -> close (bget A k) (bget B k)) -> similar (V i a) (V j b)
  | sim_seq i j ty l l' : length l = length l' -> (forall n v w, nth_error l n = Some v -> nth_error l' n = Some w -> similar v w) -> similar (V i (CSeq ty l)) (V j (CSeq ty l'))
  | sim_method i j c f : similar (V i (CMethod c f)) (V j (CMethod c f))
  | sim_lambda i j c : similar (V i (CLambda c)) (V j (CLambda c))
  | sim_obj i j k : similar (V i (CObj k)) (V j (CObj k))
  | sim_int i j z : similar (V i (CInt z)) (V j (CInt z))
  | sim_op i j ty l l' : same_keys (attributes l) (attributes l') -> (forall k v w, lookup k (attributes l) = Some v -> lookup k (attributes l') = Some w -> similar v w) -> similar (V i (COp ty l)) (V j (COp ty l')).

(** No name twice in a mapping *)
Definition distinct (l : list (string * value)) : Prop := NoDup (map fst l).
Inductive wf : value -> Prop :=
  | wf_map i ty l : distinct l -> Forall (fun p => wf (snd p)) l -> wf (V i (CMap ty l))
  | wf_op i ty l : distinct l -> Forall (fun p => wf (snd p)) l -> wf (V i (COp ty l))
  | wf_seq i ty l : Forall wf l -> wf (V i (CSeq ty l))
  | wf_other i c : match c with CMap _ _ | COp _ _ | CSeq _ _ => False | _ => True end -> wf (V i c).
(** No number but integers *)
Inductive exact : value -> Prop :=
  | ex_map i ty l : Forall (fun p => exact (snd p)) l -> exact (V i (CMap ty l))
  | ex_op i ty l : Forall (fun p => exact (snd p)) l -> exact (V i (COp ty l))
  | ex_seq i ty l : Forall exact l -> exact (V i (CSeq ty l))
  | ex_other i c : match c with CMap _ _ | COp _ _ | CSeq _ _ | CFloat _ | CArray _ => False | _ => True end -> exact (V i c).
(** b is a copy of a: the same content in other objects *)
Inductive copy : value -> value -> Prop :=
  | copy_map i j ty l l' : Forall2 (fun p q => fst p = fst q /\ copy (snd p) (snd q)) l l' -> copy (V i (CMap ty l)) (V j (CMap ty l'))
  | copy_op i j ty l l' : Forall2 (fun p q => fst p = fst q /\ copy (snd p) (snd q)) l l' -> copy (V i (COp ty l)) (V j (COp ty l'))
  | copy_seq i j ty l l' : Forall2 copy l l' -> copy (V i (CSeq ty l)) (V j (CSeq ty l'))
  | copy_other i j c : match c with CMap _ _ | COp _ _ | CSeq _ _ => False | _ => True end -> copy (V i c) (V j c).
(** No NaN in the arrays *)
Definition no_nan (c : content) : Prop := match c with CFloat x => x <> NaN | CArray a => forall i, inside i (a_shape a) -> a_get a i <> NaN | _ => True end.
Inductive regular : value -> Prop :=
  | re_map i ty l : Forall (fun p => regular (snd p)) l -> regular (V i (CMap ty l))
  | re_op i ty l : Forall (fun p => regular (snd p)) l -> regular (V i (COp ty l))
  | re_seq i ty l : Forall regular l -> regular (V i (CSeq ty l))
  | re_other i c : match c with CMap _ _ | COp _ _ | CSeq _ _ => False | _ => True end -> no_nan c -> regular (V i c).
(** The objects live in a memory: two objects with the same identity are the same object *)
Inductive living (heap : nat -> content) : value -> Prop :=
  | li_map i ty l : heap i = CMap ty l -> Forall (fun p => living heap (snd p)) l -> living heap (V i (CMap ty l))
  | li_op i ty l : heap i = COp ty l -> Forall (fun p => living heap (snd p)) l -> living heap (V i (COp ty l))
  | li_seq i ty l : heap i = CSeq ty l -> Forall (living heap) l -> living heap (V i (CSeq ty l))
  | li_other i c : match c with CMap _ _ | COp _ _ | CSeq _ _ => False | _ => True end -> heap i = c -> living heap (V i c).

(** The dimensions of a shape, counted from the last one and completed by ones; the dimensions of two arrays that can be compared and those of the comparison *)
Definition dim (s : list nat) (k : nat) : nat := nth k (rev s) 1.
Definition compatible (s s' : list nat) : Prop := forall k, dim s k = dim s' k \/ dim s k = 1 \/ dim s' k = 1.
Definition common (s s' : list nat) (k : nat) : nat := if dim s k =? 1 then dim s' k else dim s k.
(** The element of an array for the indices f, counted from the last dimension: the dimensions of size one are repeated *)
Definition element (a : array) (f : nat -> nat) : num := a_get a (rev (map (fun k => if dim (a_shape a) k =? 1 then 0 else f k) (seq 0 (length (a_shape a))))).
(** The number in a value *)
Definition number (v : value) : option num := match v with V _ (CInt z) => Some (Fin (inject_Z z)) | V _ (CFloat x) => Some x | _ => None end.
