(** C10, C11 and C12 for the core operators of the library, with the rules that the library gives them. *)
From Verif Require Import Base Algebra EngineModel EngineSpec EngineProofs EngineProps RuleModel CalcModel CalcSpec CalcProofs CalcEnds.

Lemma blocks_bool {K : cring} {atom} (env : oracles K atom) : (blocks_fixed env && add_numbers env)%bool = true -> blocks_fixed env = true /\ add_numbers env = true.
Proof. apply andb_prop. Qed.

(** C10.  Whatever the operands (diagonal, constant, power operators and so on, sums, products and products of products of them,
    block operators if the rules on them are fixed, and any other operator whose flags, equality and associated operators tell the truth), the operator that is built does
    what the product of the operands does. *)
Theorem C10_core {K : cring} {atom} (env : oracles K atom) (aden : atom -> list K -> list K -> Prop) : calculus aden env ->
  forall fuel ops o, Forall (admissible env) ops -> build env fuel KComp ops = ret o ->
    forall x y, composes (den aden) ops x y -> den aden o x y.
Proof. intros C fuel ops o W E. refine (proj2 (build_sound env aden C _ (blocks_bool env) fuel KComp ops o _ W E)). discriminate. Qed.

(** The construction ends, and gives an operator or raises an exception: whatever the operands, block operators included, with
    the rules of the code or with the fixed ones, and whether or not the flags and the equality of the operators tell the truth. *)
Theorem C10_core_ends {K : cring} {atom} (env : oracles K atom) : (forall a b, k_eqb env a b = true <-> a = b) -> (r1 : K) <> r0 ->
  forall ops, Forall (wf true) ops -> exists result steps, forall fuel, steps <= fuel -> build env fuel KComp ops = Some result.
Proof. intros E N ops W. exact (Build_ends env E N KComp ops W). Qed.

(** C11.  The same for an element-wise product. *)
Theorem C11_core_mul {K : cring} {atom} (env : oracles K atom) (aden : atom -> list K -> list K -> Prop) : calculus aden env ->
  forall fuel ops o, Forall (admissible env) ops -> build env fuel KMul ops = ret o ->
    forall x y, combines (den aden) times ops x y -> den aden o x y.
Proof. intros C fuel ops o W E. refine (proj2 (build_sound env aden C _ (blocks_bool env) fuel KMul ops o _ W E)). discriminate. Qed.

(** And for a sum, supposing that the coefficients of masks are added as numbers.  The code adds them as booleans:
    see C11_mask_sum_refuted. *)
Theorem C11_core_add_partial {K : cring} {atom} (env : oracles K atom) (aden : atom -> list K -> list K -> Prop) : calculus aden env -> add_numbers env = true ->
  forall fuel ops o, Forall (admissible env) ops -> build env fuel KAdd ops = ret o ->
    forall x y, combines (den aden) plus ops x y -> den aden o x y.
Proof. intros C N fuel ops o W E. exact (proj2 (build_sound env aden C _ (blocks_bool env) fuel KAdd ops o (fun _ => N) W E)). Qed.

(** Sums and element-wise products end as well. *)
Theorem C11_core_ends {K : cring} {atom} (env : oracles K atom) : (forall a b, k_eqb env a b = true <-> a = b) -> (r1 : K) <> r0 ->
  forall k ops, Forall (wf true) ops -> exists result steps, forall fuel, steps <= fuel -> build env fuel k ops = Some result.
Proof. intros E N k ops W. exact (Build_ends env E N k ops W). Qed.

(** C12.  The stage that moves the scalars, for these operators. *)
Theorem C12_core {K : cring} {atom} (env : oracles K atom) (aden : atom -> list K -> list K -> Prop) : calculus aden env ->
  forall fuel ops ops', Forall (admissible env) ops ->
    homothety_stage (k_eqb env) (linear env) is_ident scalar_of Ident (mkhomo env) (homo_left env (build env fuel)) (homo_right env (build env fuel)) ops = ret ops' ->
    concat (map snd (groupby (linear env) ops)) = ops
    /\ Forall (fun g => Forall (fun o => linear env o = fst g) (snd g)) (groupby (linear env) ops)
    /\ (exists gs', ops' = concat gs' /\ Forall2 (run_kept (den aden) scalar_of) (groupby (linear env) ops) gs')
    /\ forall x y, composes (den aden) ops x y -> composes (den aden) ops' x y.
Proof.
  intros C fuel ops ops' W. pose proof (build_sound env aden C _ (blocks_bool env) fuel) as Hb.
  apply (C12_scalars (k_eqb env) (den aden) (fun k => map (rmul k)) (admissible env) (linear env) is_ident scalar_of Ident (mkhomo env)); auto.
  - intros a b. apply (keqb_ok _ _ C).
  - apply scaling_ok.
  - exact (scalar_ops_ok env aden C _ (blocks_bool env)).
  - intros o d. exact (homo_left_sound env aden C _ (blocks_bool env) _ Hb o d).
  - intros o d. exact (homo_right_sound env aden C _ (blocks_bool env) _ Hb o d).
Qed.

(** ** An instance: vectors of integers; Rev reverses a vector, Scale k multiplies it by k and absorbs scalars, Shift adds 1. *)
Inductive at_ := Rev | Scale (k : Z) | Shift.
Definition aden_ (a : at_) (x y : list Zring) : Prop :=
  y = match a with Rev => rev x | Scale k => map (Z.mul k) x | Shift => map (Z.add 1) x end.
Definition at_eqb (a b : at_) : bool :=
  match a, b with Rev, Rev | Shift, Shift => true | Scale k, Scale l => (k =? l)%Z | _, _ => false end.
Definition envZ : oracles Zring at_ := {|
  k_eqb := Z.eqb : Zring -> Zring -> bool; k_close := Z.eqb : Zring -> Zring -> bool;
  a_linear := fun a => match a with Shift => false | _ => true end;
  a_idempotent := fun _ => false;
  a_involutary := fun a => match a with Rev => true | _ => false end;
  a_orthogonal := fun a => match a with Rev => true | _ => false end;
  a_unitary := fun a => match a with Rev => true | _ => false end;
  a_separable := fun a => match a with Rev => false | _ => true end;
  a_absorb := fun a => match a with Scale k => Some (fun d => Scale (k * d)%Z) | _ => None end;
  a_eqb := at_eqb;
  associated := fun o _ => match o with Atom Rev => Some (Atom Rev) | _ => None end;
  explicit_shapein := fun _ => None;
  is_unconstrained := fun o => match o with Atom _ => false | _ => true end;
  call_op := fun o x => match o with Atom Rev => Ok (rev x) | Atom (Scale k) => Ok (map (Z.mul k) x) | Atom Shift => Ok (map (Z.add 1) x) | _ => Raise ValueError end;
  add_numbers := true; zero_too := false; blocks_fixed := true |}.
Example ex_calculus : calculus aden_ envZ.
Proof.
  split; simpl.
  - apply Z.eqb_eq.
  - apply Z.eqb_eq.
  - intros [|k|] L; try discriminate L; intros d x y; unfold aden_; simpl.
    + rewrite <- map_rev. split; [intros ->; eauto|intros [z [-> ->]]; reflexivity].
    + rewrite map_map. split; [intros ->; eexists; split; [reflexivity|]|intros [z [-> ->]]]; rewrite map_map; apply map_ext; intros; simpl; lia.
  - discriminate.
  - intros [|k|] S; try discriminate S; intros x y; unfold aden_; intros ->; (split; [apply map_length|]); intros x1 x2 ->;
      (do 2 eexists; split; [apply map_app|]; split; [reflexivity|]; split; [reflexivity|apply map_length]).
  - intros [|k|]; try discriminate. intros _ x z y. simpl. unfold aden_. intros -> ->. apply rev_involutive.
  - intros [|k|] [|l|]; simpl; try discriminate; try reflexivity. intros E. apply Z.eqb_eq in E. subst. reflexivity.
  - intros [[|k|]| | | | | | | | | | |] p; try discriminate. intros [= <-] x z y. simpl. unfold aden_. intros -> ->. apply rev_involutive.
  - intros [[|k|]| | | | | | | | | | |] p _; try discriminate. intros [= <-] x z y. simpl. unfold aden_. intros -> ->. apply rev_involutive.
  - intros [[|k|]| | | | | | | | | | |] p _; try discriminate. intros [= <-] x z y. simpl. unfold aden_. intros -> ->. apply rev_involutive.
  - intros [|k|] f; try discriminate. intros [= <-] d x y. unfold aden_. intros ->. rewrite map_map. apply map_ext. intros; simpl; lia.
  - discriminate.
  - intros [[|k|]| | | | | | | | | | |] x y; try discriminate; intros [= <-]; reflexivity.
  - discriminate.
  - intros [a| | | | | | | | | | |] x y y'; try discriminate. simpl. unfold aden_. congruence.
Qed.
Definition opZ := op Zring at_.
Definition bZ (k : kind) (l : list opZ) : out opZ := build envZ 40 k l.
Definition hom (z : Z) : opZ := Homo (z : Zring).
Definition diag (d : list Z) : opZ := Diag (d : list Zring).
Definition cst (z : Z) : opZ := Const (S0 (z : Zring)).
Definition csts (d : list Z) : opZ := Const (V1 (d : list Zring)).
(** 2 * Rev * Diag[1, 2] * 3  * Scale(5) * Shift * Rev * Rev * Constant[1, 2] and Rev * (2 * Shift) * (3 * Rev) *)
Example ex_C10_core : bZ KComp [hom 2; Atom Rev; diag [1; 2]; hom 3; Atom (Scale 5); Atom Shift; Atom Rev; Atom Rev; csts [1; 2]]%Z
  = ret (Comp [Atom Rev; diag [1; 2]; csts [60; 90]])%Z.
Proof. vm_compute. reflexivity. Qed.
Example ex_C10_core_assoc : bZ KComp [Atom Rev; Comp [hom 2; Atom Rev]; Comp [hom 3; Atom Shift]]%Z = ret (Comp [hom 6; Atom Shift])%Z.
Proof. vm_compute. reflexivity. Qed.
Example ex_C10_core_wf : Forall (admissible envZ) ([Atom Rev; Comp [hom 2; Atom Rev]; Comp [hom 3; Atom Shift]] : list opZ)%Z.
Proof. repeat constructor; discriminate. Qed.
(** Diag[1, 2] . Diag[3, 4] . x = [3, 8] x^3 *)
Example ex_C11_core_mul : bZ KMul [diag [1; 2]; diag [3; 4]; Ident]%Z = ret (Mul [csts [3; 8]; Power 3])%Z.
Proof. vm_compute. reflexivity. Qed.
Example ex_C11_core_add : bZ KAdd [Atom Rev; diag [1; 2]; Add [hom 3; cst 1]; Mask [true; false]; csts [4; 5]]%Z
  = ret (Add [diag [4; 6]; csts [5; 6]; Atom Rev])%Z.
Proof. vm_compute. reflexivity. Qed.

(** ** Block operators, with fixed rules *)
Definition bdiag (p : list nat) (l : list opZ) : opZ := Block (Some p) (Some p) l.
Definition brow (p : list nat) (l : list opZ) : opZ := Block (Some p) None l.
Definition bcol (p : list nat) (l : list opZ) : opZ := Block None (Some p) l.
(** The blocks are multiplied with the slices of the diagonal; a block row times a block column is the sum of the products. *)
Example ex_C10_core_blocks : bZ KComp [diag [1; 2; 3]; bdiag [2; 1]%nat [Atom Rev; Atom (Scale 2)]; Power 2; diag [1; 1; 4]]%Z
    = ret (bdiag [2; 1]%nat [Comp [diag [1; 2]; Atom Rev; Power 2]; Comp [Atom (Scale 6); Power 2; hom 4]])%Z
  /\ bZ KComp [brow [2; 2]%nat [Atom Rev; hom 3]; bdiag [2; 2]%nat [Atom Rev; Ident]; bcol [2; 2]%nat [Ident; Atom Shift]]%Z
    = ret (Add [Ident; Comp [hom 3; Atom Shift]])%Z.
Proof. vm_compute. auto. Qed.
Example ex_C10_core_blocks_wf : Forall (admissible envZ) ([diag [1; 2; 3]; bdiag [2; 1]%nat [Atom Rev; Atom (Scale 2)]; Power 2; brow [2; 2]%nat [Atom Rev; hom 3]] : list opZ)%Z.
Proof. repeat constructor; discriminate. Qed.
Example ex_C10_core_ends : Forall (wf true) ([diag [1; 2; 3]; bdiag [2; 1]%nat [bdiag [1; 1]%nat [Power 2; Zero]; brow [2; 2]%nat [Atom Rev; hom 3]]; cst 4] : list opZ)%Z
  /\ (forall a b : Zring, k_eqb envZ a b = true <-> a = b) /\ (r1 : Zring) <> r0.
Proof. split; [repeat constructor; discriminate|]. split; [intros a b; apply Z.eqb_eq|discriminate]. Qed.
Example ex_C11_core_blocks : bZ KAdd [bcol [2; 2]%nat [Atom Rev; hom 3]; csts [1; 2; 3; 4]; bcol [2; 2]%nat [Ident; Ident]]%Z
    = ret (bcol [2; 2]%nat [Add [Ident; Atom Rev; csts [1; 2]]; Add [hom 4; csts [3; 4]]])%Z
  /\ bZ KMul [bdiag [1; 2]%nat [Atom Rev; hom 3]; diag [2; 2; 3]; Power 2]%Z
    = ret (bdiag [1; 2]%nat [Mul [Comp [hom 2; Atom Rev]; Power 3]; Mul [csts [6; 9]; Power 4]])%Z.
Proof. vm_compute. auto. Qed.

(** ** What is not true of the code *)
(** The rules of the code on block operators. *)
Definition envB (b : bool) : oracles Zring at_ := {|
  k_eqb := k_eqb envZ; k_close := k_close envZ;
  a_linear := a_linear envZ; a_idempotent := a_idempotent envZ; a_involutary := a_involutary envZ; a_orthogonal := a_orthogonal envZ; a_unitary := a_unitary envZ; a_separable := a_separable envZ;
  a_absorb := a_absorb envZ; a_eqb := a_eqb envZ; associated := associated envZ; explicit_shapein := explicit_shapein envZ; is_unconstrained := is_unconstrained envZ;
  call_op := call_op envZ; add_numbers := true; zero_too := false; blocks_fixed := b |}.
Lemma envB_calculus b : calculus aden_ (envB b).
Proof. destruct ex_calculus. split; auto. Qed.
(** A zero operator may have any output size, but its product with a block diagonal or block column operator is a block
    operator made of zeros, whose output has the size of the output of the block operator. *)
Theorem C10_zero_block_refuted : calculus aden_ (envB false)
  /\ exists (ops : list opZ) o (x y : list Zring), Forall (wf true) ops /\ build (envB false) 10 KComp ops = ret o
     /\ composes (den aden_) ops x y /\ ~ den aden_ o x y.
Proof.
  split; [apply envB_calculus|]. exists [Zero; bdiag [1; 1]%nat [Atom Rev; Atom Shift]]. eexists. exists [5; 7]%Z, [0; 0; 0]%Z. split; [repeat constructor|]. split; [vm_compute; reflexivity|]. split.
  - exists [5; 8]%Z. split; [exists [5; 7]%Z; split; [reflexivity|]|exists 3%nat; reflexivity].
    exists [5]%Z, [7]%Z, [5]%Z, [8]%Z. repeat (split; [reflexivity|]). exists [7]%Z, [], [8]%Z, []. repeat (split; [reflexivity|]). split; reflexivity.
  - intros H. apply CalcBlocks.diag_lengths in H. destruct H as [_ [H _]]. discriminate H.
Qed.
(** A constant operator accepts inputs of any size, but the product of a block diagonal or block row operator with it is a
    block operator that partitions its input. *)
Theorem C10_block_const_refuted : calculus aden_ (envB false)
  /\ exists (ops : list opZ) o (x y : list Zring), Forall (wf true) ops /\ build (envB false) 10 KComp ops = ret o
     /\ composes (den aden_) ops x y /\ ~ den aden_ o x y.
Proof.
  split; [apply envB_calculus|]. exists [bdiag [1; 1]%nat [Power 2; Atom Shift]; csts [3; 4]%Z]. eexists. exists [5; 7; 9]%Z, [9; 5]%Z. split; [repeat constructor|]. split; [vm_compute; reflexivity|]. split.
  - exists [3; 4]%Z. split; [exists [5; 7; 9]%Z; split; reflexivity|].
    exists [3]%Z, [4]%Z, [9]%Z, [5]%Z. repeat (split; [reflexivity|]). exists [4]%Z, [], [5]%Z, []. repeat (split; [reflexivity|]). split; reflexivity.
  - intros H. apply CalcBlocks.diag_lengths in H. destruct H as [H _]. discriminate H.
Qed.
(** The element-wise product of two block rows is replaced by a block row of element-wise products: the product of the sums
    becomes the sum of the products. *)
Theorem C11_row_product_refuted : calculus aden_ (envB false)
  /\ exists (ops : list opZ) o (x y : list Zring), Forall (wf true) ops /\ build (envB false) 10 KMul ops = ret o
     /\ combines (den aden_) times ops x y /\ ~ den aden_ o x y.
Proof.
  split; [apply envB_calculus|]. exists [brow [1; 1]%nat [Atom Rev; Atom Rev]; brow [1; 1]%nat [Atom Rev; Atom Rev]]. eexists. exists [1; 2]%Z, [9]%Z. split; [repeat constructor|]. split; [vm_compute; reflexivity|]. split.
  - apply combined_combines. assert (R : den aden_ (brow [1; 1]%nat [Atom Rev; Atom Rev]) [1; 2]%Z [3]%Z).
    { exists [1]%Z, [2]%Z, [1]%Z, [2]%Z. repeat (split; [reflexivity|]). split; [split; reflexivity|split; reflexivity]. }
    exists [3]%Z, [3]%Z. split; [exact R|]. split; [exact R|split; reflexivity].
  - intros [x1 [x2 [a [b [E [L [[u [v [U [V [_ ->]]]]] [[_ [u' [v' [U' [V' [_ ->]]]]]] [_ Y]]]]]]]]]. destruct x1 as [|p [|q x1]]; try discriminate L. injection E as <- <-.
    cbv in U, V, U', V'. subst. discriminate Y.
Qed.
(** The sum of a diagonal operator and a block column is replaced by a block column of sums: the slices of the diagonal operator
    are applied to the whole input. *)
Theorem C11_diag_column_refuted : calculus aden_ (envB false)
  /\ exists (ops : list opZ) o (x y : list Zring), Forall (wf true) ops /\ build (envB false) 10 KAdd ops = ret o
     /\ combines (den aden_) plus ops x y /\ ~ den aden_ o x y.
Proof.
  split; [apply envB_calculus|]. exists [diag [2; 3]%Z; bcol [1; 1]%nat [brow [1; 1]%nat [Atom Rev; Atom Rev]; brow [1; 1]%nat [Atom Rev; Atom Rev]]].
  eexists. exists [1; 2]%Z, [5; 9]%Z. split; [repeat constructor|]. split; [vm_compute; reflexivity|]. split.
  - apply combined_combines. assert (R : den aden_ (brow [1; 1]%nat [Atom Rev; Atom Rev]) [1; 2]%Z [3]%Z).
    { exists [1]%Z, [2]%Z, [1]%Z, [2]%Z. repeat (split; [reflexivity|]). split; [split; reflexivity|split; reflexivity]. }
    exists [2; 6]%Z, [3; 3]%Z. split; [split; reflexivity|]. split; [|split; reflexivity].
    exists [3]%Z, [3]%Z. repeat (split; [reflexivity|]). split; [exact R|]. exists [3]%Z, []. repeat (split; [reflexivity|]). split; [exact R|reflexivity].
  - intros [y1 [y2 [E [L [[a [b [A [_ [La ->]]]]] _]]]]]. cbv in A. subst. destruct b as [|b1 [|b2 [|b3 b]]]; try discriminate La. discriminate L.
Qed.
(** In the sum of a block column or a block row and a separable operator, the separable operator is added to each block: here
    to the blocks of two block rows, so that the squares of all the elements of the input are added to each output. *)
Theorem C11_separable_column_refuted : calculus aden_ (envB false)
  /\ exists (ops : list opZ) o (x y : list Zring), Forall (wf true) ops /\ build (envB false) 10 KAdd ops = ret o
     /\ combines (den aden_) plus ops x y /\ ~ den aden_ o x y.
Proof.
  split; [apply envB_calculus|]. exists [bcol [1; 1]%nat [brow [1; 1]%nat [Atom Rev; Atom Rev]; brow [1; 1]%nat [Atom Rev; Atom Rev]]; Power 2].
  eexists. exists [1; 2]%Z, [4; 7]%Z. split; [repeat constructor|]. split; [vm_compute; reflexivity|]. split.
  - apply combined_combines. assert (R : den aden_ (brow [1; 1]%nat [Atom Rev; Atom Rev]) [1; 2]%Z [3]%Z).
    { exists [1]%Z, [2]%Z, [1]%Z, [2]%Z. repeat (split; [reflexivity|]). split; [split; reflexivity|split; reflexivity]. }
    exists [3; 3]%Z, [1; 4]%Z. split; [|split; [reflexivity|split; reflexivity]].
    exists [3]%Z, [3]%Z. repeat (split; [reflexivity|]). split; [exact R|]. exists [3]%Z, []. repeat (split; [reflexivity|]). split; [exact R|reflexivity].
  - intros [y1 [y2 [E [L [[x1 [x2 [a [b [Ex [Lx [[u [v [U [V [_ ->]]]]] [[_ [u' [v' [U' [V' [_ ->]]]]]] [_ ->]]]]]]]]] _]]]]].
    destruct x1 as [|p [|q x1]]; try discriminate Lx. injection Ex as <- <-. cbv in U, V, U', V'. subst. discriminate E.
Qed.
(** A block row is flagged linear even if its blocks are not linear: scalars are moved through it. *)
Theorem C12_row_linear_refuted : calculus aden_ (envB false)
  /\ exists (ops : list opZ) o (x y : list Zring), Forall (wf true) ops /\ build (envB false) 10 KComp ops = ret o
     /\ composes (den aden_) ops x y /\ ~ den aden_ o x y.
Proof.
  split; [apply envB_calculus|]. exists [brow [1; 1]%nat [Atom Shift; Atom Shift]; hom 2]. eexists. exists [1; 2]%Z, [8]%Z. split; [repeat constructor; discriminate|]. split; [vm_compute; reflexivity|]. split.
  - exists [2; 4]%Z. split; [exists [1; 2]%Z; split; reflexivity|].
    exists [2]%Z, [4]%Z, [3]%Z, [5]%Z. repeat (split; [reflexivity|]). split; [split; reflexivity|split; reflexivity].
  - intros [z [[z' [<- [x1 [x2 [a [b [E [L [A [[_ B] [_ Z]]]]]]]]]]] Y]]. destruct x1 as [|p [|q x1]]; try discriminate L. injection E as <- <-.
    cbv in A, B. subst. discriminate Y.
Qed.

(** Two idempotent operators with the same code but not the same data compare equal: == compares functions by their code only
    (core.py 1547-1559, utils/misc.py 139-183).  Here Keep i keeps the coordinate i and sets the others to 0.  [honest] is the
    environment with an equality that tells the truth. *)
Definition keep (i : nat) (x : list Z) : list Z := map (fun p => if (fst p =? i)%nat then snd p else 0%Z) (combine (seq 0 (length x)) x).
Definition keeps (i : nat) (x y : list Zring) : Prop := y = keep i x.
Definition envP (equal : nat -> nat -> bool) : oracles Zring nat := {|
  k_eqb := Z.eqb : Zring -> Zring -> bool; k_close := Z.eqb : Zring -> Zring -> bool;
  a_linear := fun _ => true; a_idempotent := fun _ => true; a_involutary := fun _ => false; a_orthogonal := fun _ => false; a_unitary := fun _ => false; a_separable := fun _ => false;
  a_absorb := fun _ => None; a_eqb := equal; associated := fun _ _ => None; explicit_shapein := fun _ => None; is_unconstrained := fun _ => true;
  call_op := fun _ _ => Raise ValueError; add_numbers := true; zero_too := false; blocks_fixed := true |}.
Lemma keep_scal i k x : keep i (map (Z.mul k) x) = map (Z.mul k) (keep i x).
Proof.
  unfold keep. rewrite map_length. unfold car, Zring. generalize (seq 0 (length x)). induction x as [|a x IH]; intros [|j s]; simpl; try reflexivity.
  apply (f_equal2 (@cons Z)); [destruct (j =? i)%nat; simpl; lia|apply IH].
Qed.
Lemma keep_honest : calculus keeps (envP Nat.eqb).
Proof.
  split; simpl; try discriminate.
  - apply Z.eqb_eq.
  - apply Z.eqb_eq.
  - unfold keeps. intros i _ k x y. change (map (rmul k) x) with (map (Z.mul k) x). rewrite keep_scal. split; [intros ->; eauto|intros [z [-> ->]]; auto].
  - unfold keeps. intros i _ x z y -> ->. unfold keep. rewrite map_length, combine_length, seq_length, Nat.min_id. generalize 0%nat. induction x as [|a x IH]; intros s; simpl; [reflexivity|].
    rewrite IH. f_equal. destruct (s =? i)%nat; reflexivity.
  - intros a b E. apply Nat.eqb_eq in E. subst. reflexivity.
Qed.
Theorem C10_same_code_refuted : calculus keeps (envP Nat.eqb)
  /\ exists (ops : list (op Zring nat)) o (x y : list Zring), build (envP (fun _ _ => true)) 10 KComp ops = ret o
     /\ composes (den keeps) ops x y /\ ~ den keeps o x y.
Proof.
  split; [apply keep_honest|]. exists [Atom 0; Atom 1]%nat, (Atom 1%nat), [5; 7]%Z, [0; 0]%Z. split; [reflexivity|]. split; [|discriminate].
  exists [0; 7]%Z. split; [|reflexivity]. exists [5; 7]%Z. split; reflexivity.
Qed.

(** Numbers are compared by numpy.allclose: |a - b| <= 1e-8 + 1e-5 |b|.  Two constant operators (which are idempotent)
    that are only close to each other are taken for the same, and the one on the right is kept. *)
Definition allclose (a b : Zring) : bool := (100000 * Z.abs (a - b) <=? Z.abs b)%Z.
Definition envC (close : Zring -> Zring -> bool) : oracles Zring at_ := {|
  k_eqb := Z.eqb : Zring -> Zring -> bool; k_close := close;
  a_linear := a_linear envZ; a_idempotent := a_idempotent envZ; a_involutary := a_involutary envZ; a_orthogonal := a_orthogonal envZ; a_unitary := a_unitary envZ; a_separable := a_separable envZ;
  a_absorb := a_absorb envZ; a_eqb := a_eqb envZ; associated := associated envZ; explicit_shapein := explicit_shapein envZ; is_unconstrained := is_unconstrained envZ;
  call_op := call_op envZ; add_numbers := true; zero_too := false; blocks_fixed := true |}.
Theorem C10_allclose_refuted : calculus aden_ (envC Z.eqb)
  /\ exists (ops : list opZ) o (x y : list Zring), build (envC allclose) 10 KComp ops = ret o /\ composes (den aden_) ops x y /\ ~ den aden_ o x y.
Proof.
  split; [exact ex_calculus|]. exists [csts [1000000; 0]; csts [1000001; 0]]%Z, (csts [1000001; 0]%Z), [0; 0]%Z, [1000000; 0]%Z.
  split; [reflexivity|]. split; [|discriminate]. exists [1000001; 0]%Z. split; [|reflexivity]. exists [0; 0]%Z. split; reflexivity.
Qed.

(** The sum of two masks is a mask: numpy adds booleans by a logical or. *)
Definition envM (b : bool) : oracles Zring at_ := {|
  k_eqb := k_eqb envZ; k_close := k_close envZ;
  a_linear := a_linear envZ; a_idempotent := a_idempotent envZ; a_involutary := a_involutary envZ; a_orthogonal := a_orthogonal envZ; a_unitary := a_unitary envZ; a_separable := a_separable envZ;
  a_absorb := a_absorb envZ; a_eqb := a_eqb envZ; associated := associated envZ; explicit_shapein := explicit_shapein envZ; is_unconstrained := is_unconstrained envZ;
  call_op := call_op envZ; add_numbers := b; zero_too := false; blocks_fixed := true |}.
Theorem C11_mask_sum_refuted : calculus aden_ (envM false)
  /\ exists (ops : list opZ) o (x y : list Zring), build (envM false) 10 KAdd ops = ret o /\ combines (den aden_) plus ops x y /\ ~ den aden_ o x y.
Proof.
  split. { destruct ex_calculus. split; auto. }
  exists [Mask [true; false]; Mask [true; false]], (Mask [true; false]), [1; 1]%Z, [0; 2]%Z. split; [reflexivity|]. split.
  - apply combined_combines. exists [0; 1]%Z, [0; 1]%Z. repeat split.
  - simpl. intros [_ H]. discriminate.
Qed.

(** A rule for homotheties is also tried on the zero operator (rules.py 231-232), though a zero operator need not be square:
    here Dense n is a 3 x 2 matrix filled with n, and Zero maps any input to two zeros; the product of the two accepts inputs
    with five elements, and the operator that is built does not. *)
Definition dense (n : Z) (x y : list Zring) : Prop := length x = 2%nat /\ y = repeat (n * fold_right Z.add 0 x)%Z 3.
Definition envD (z : bool) : oracles Zring Z := {|
  k_eqb := Z.eqb : Zring -> Zring -> bool; k_close := Z.eqb : Zring -> Zring -> bool;
  a_linear := fun _ => true; a_idempotent := fun _ => false; a_involutary := fun _ => false; a_orthogonal := fun _ => false; a_unitary := fun _ => false; a_separable := fun _ => false;
  a_absorb := fun n => Some (fun d : Zring => (n * d)%Z); a_eqb := Z.eqb; associated := fun _ _ => None;
  explicit_shapein := fun o => match o with Atom _ => Some 2%nat | _ => None end; is_unconstrained := fun _ => true;
  call_op := fun _ _ => Raise ValueError; add_numbers := true; zero_too := z; blocks_fixed := true |}.
Lemma dense_scal (k n : Z) (x y : list Zring) : dense n (map (Z.mul k) x) y <-> length x = 2%nat /\ y = repeat (n * (k * fold_right Z.add 0 x))%Z 3.
Proof.
  unfold dense. rewrite map_length. replace (fold_right Z.add 0 (map (Z.mul k) x))%Z with (k * fold_right Z.add 0 x)%Z; [reflexivity|].
  induction x as [|a x IH]; cbn [fold_right map]; [lia|]. rewrite <- IH. lia.
Qed.
Theorem C10_zero_absorbed_refuted : calculus dense (envD false)
  /\ exists (ops : list (op Zring Z)) o (x y : list Zring), build (envD true) 10 KComp ops = ret o /\ composes (den dense) ops x y /\ ~ den dense o x y.
Proof.
  split.
  - split; cbn [envD k_eqb k_close a_linear a_idempotent a_involutary a_orthogonal a_unitary a_separable a_absorb a_eqb associated explicit_shapein is_unconstrained call_op add_numbers zero_too blocks_fixed]; try discriminate.
    + apply Z.eqb_eq.
    + apply Z.eqb_eq.
    + intros n _ k x y. change (map (rmul k) x) with (map (Z.mul k) x). rewrite dense_scal. split.
      * intros [L ->]. eexists. split; [split; [exact L|reflexivity]|]. simpl. rewrite (Z.mul_shuffle3 n k). reflexivity.
      * intros [z [[L ->] ->]]. split; [exact L|]. simpl. rewrite (Z.mul_shuffle3 n k). reflexivity.
    + intros a b E. apply Z.eqb_eq in E. subst. reflexivity.
    + intros n f [= <-] d x y H. change (map (rmul d) x) with (map (Z.mul d) x) in H. apply dense_scal in H. destruct H as [L ->]. split; [exact L|]. f_equal. lia.
    + intros o n x y. destruct o; try discriminate. intros [= <-] [L _]. exact L.
  - exists [Atom 1%Z; Zero], (Atom 0%Z), (repeat 1%Z 5), (repeat 0%Z 3). split; [reflexivity|]. split.
    + exists (repeat 0%Z 2). split; [|split; reflexivity]. exists (repeat 1%Z 5). split; [reflexivity|]. exists 2%nat. reflexivity.
    + intros [L _]. discriminate L.
Qed.

Print Assumptions C10_core.
Print Assumptions C10_core_ends.
Print Assumptions C11_core_mul.
Print Assumptions C11_core_add_partial.
Print Assumptions C11_core_ends.
Print Assumptions C12_core.
Print Assumptions C10_same_code_refuted.
Print Assumptions C10_allclose_refuted.
Print Assumptions C11_mask_sum_refuted.
Print Assumptions C10_zero_absorbed_refuted.

Print Assumptions C10_zero_block_refuted.
Print Assumptions C10_block_const_refuted.
Print Assumptions C11_row_product_refuted.
Print Assumptions C11_diag_column_refuted.
Print Assumptions C11_separable_column_refuted.
Print Assumptions C12_row_linear_refuted.
