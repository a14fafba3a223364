(** Gaussian integers with their conjugation: used for concrete complex witnesses.  Nothing here models a particular file. *)
From Coq Require Import ZArith.
From Verif Require Import Base Algebra Matrix.
Local Open Scope Z_scope.

Record gint := GI { re : Z; im : Z }.
Definition gadd (x y : gint) := GI (re x + re y) (im x + im y).
Definition gopp (x : gint) := GI (- re x) (- im x).
Definition gsub (x y : gint) := GI (re x - re y) (im x - im y).
Definition gmul (x y : gint) := GI (re x * re y - im x * im y) (re x * im y + im x * re y).
Lemma gth : ring_theory (GI 0 0) (GI 1 0) gadd gmul gsub gopp eq.
Proof.
  split; repeat (intros [? ?] || intros); unfold gadd, gmul, gsub, gopp; cbn [re im]; f_equal; ring.
Qed.
Definition Gring : cring := {| car := gint; r0 := GI 0 0; r1 := GI 1 0; radd := gadd; rmul := gmul; rsub := gsub; ropp := gopp; rth := gth |}.
Definition gconj (x : gint) := GI (re x) (- im x).
Definition Gconj : conjugation Gring.
Proof.
  refine {| cj := (gconj : Gring -> Gring) |}; [intros [a b] [c d]..|reflexivity]; cbn; unfold gconj, gadd, gmul; cbn [re im]; f_equal; ring.
Defined.
Lemma gconjK (x : Gring) : Gconj (Gconj x) = x.
Proof. destruct x as [a b]. cbn. unfold gconj. cbn [re im]. f_equal. ring. Qed.
(** The identity is a conjugation. *)
Definition idconj (K : cring) : conjugation K.
Proof. refine {| cj := fun x : K => x |}; reflexivity. Defined.
