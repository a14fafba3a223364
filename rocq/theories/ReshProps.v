(** C62: reshaping keeps the elements, in order. *)
From Verif Require Import Base ReshModel ReshSpec ReshProofs.
Local Open Scope Z_scope.

(** A reshaping operator exists if and only if both shapes are given and have the same number of elements. *)
Theorem C62_construction : forall si so,
  (forall s t, si = Some s -> so = Some t -> size (tointtuple s) = size (tointtuple t) -> exists o,
    reshape si so = Ok o /\ shapein o = tointtuple s /\ shapeout o = tointtuple t) /\
  (forall o, reshape si so = Ok o -> exists s t, si = Some s /\ so = Some t /\ length (indices (tointtuple s)) = length (indices (tointtuple t))) /\
  (forall e, reshape si so = Raise e -> e = ValueError).
Proof.
  intros si so. split; [|split].
  - intros s t -> ->. apply reshape_ok.
  - intros o; apply reshape_sizes.
  - intros e; apply reshape_error.
Qed.
Example C62_construction_ex : reshape (Some (Int 6)) (Some (Tuple [3; 2])%nat) = Ok (Reshape [6%nat] [3; 2]%nat) /\
  reshape (Some (Int 6)) (Some (Tuple [3; 3])%nat) = Raise ValueError /\ reshape (Some (Int 6)) (Some (Tuple [6])%nat) = Ok (Identity [6%nat]).
Proof. repeat split. Qed.

(** The operator fills an output that is contiguous with the elements of its input, in the same order, and changes nothing else; the input
    may have any strides and share its memory with the output. *)
Theorem C62_elements : forall (V : Type) si so o (m : Z -> V) x out, reshape si so = Ok o ->
  a_shape x = shapein o -> a_shape out = shapeout o ->
  packed_array (a_offset out) (a_shape out) (map snd (a_dims out)) -> exists m', call o m x out = Ok m' /\
  in_order m' (a_offset out) (a_shape out) (map snd (a_dims out)) = in_order m (a_offset x) (a_shape x) (map snd (a_dims x)) /\
  forall p, ~ belongs p (a_offset out) (a_shape out) (map snd (a_dims out)) -> m' p = m p.
Proof.
  intros V si so o m x out R A B P. destruct (call_ok m (reshape_well_formed R) A B P) as (m' & C & E & F).
  exists m'. split; [exact C|]. rewrite <- !elements_spec. split; [exact E|]. intros p N. apply F. now rewrite addresses_belongs.
Qed.
Example C62_elements_ex : exists m', call (Reshape [3; 2] [6])%nat squares every_other (new_array 101 [6%nat]) = Ok m' /\
  map m' [100; 101; 102; 103; 104; 105; 106; 107] = [10000; 10000; 10404; 10816; 11236; 11664; 12100; 11449].
Proof. eexists. split; reflexivity. Qed.

(** Between equal shapes, the output may have any strides, if its elements do not overlap. *)
Theorem C62_same_shape : forall (V : Type) si so o (m : Z -> V) x out, reshape si so = Ok o -> shapein o = shapeout o ->
  a_shape x = shapein o -> a_shape out = shapeout o ->
  (forall i j, In i (indices (a_shape out)) -> In j (indices (a_shape out)) ->
     address (a_offset out) (map snd (a_dims out)) i = address (a_offset out) (map snd (a_dims out)) j -> i = j) ->
  exists m', call o m x out = Ok m' /\
  in_order m' (a_offset out) (a_shape out) (map snd (a_dims out)) = in_order m (a_offset x) (a_shape x) (map snd (a_dims x)) /\
  forall p, ~ belongs p (a_offset out) (a_shape out) (map snd (a_dims out)) -> m' p = m p.
Proof.
  intros V si so o m x out R D A B P. destruct (call_identity m (reshape_well_formed R) D A B P) as (m' & C & E & F).
  exists m'. split; [exact C|]. rewrite <- !elements_spec. split; [exact E|]. intros p N. apply F. now rewrite addresses_belongs.
Qed.
Example C62_same_shape_ex : exists m', call (Identity [3; 2]%nat) squares (new_array 0 [3; 2]%nat) every_other = Ok m' /\
  map m' [100; 101; 102; 104; 106] = [0; 10201; 1; 4; 9].
Proof. eexists. split; reflexivity. Qed.

(** A call only succeeds on arrays that have the shapes of the operator. *)
Theorem C62_shapes : forall (V : Type) si so o (m m' : Z -> V) x out, reshape si so = Ok o -> call o m x out = Ok m' ->
  a_shape x = shapein o /\ a_shape out = shapeout o.
Proof. intros V si so o m m' x out _. apply call_shapes. Qed.
Example C62_shapes_ex : call (Reshape [3; 2] [6])%nat squares every_other (new_array 0 [5%nat]) = Raise ValueError.
Proof. reflexivity. Qed.

(** Finding: a ReshapeOperator called with an output that is not contiguous (out=a[:, ::2]) writes nothing: it assigns to output.ravel(),
    which is then a copy, and it does not ask for a contiguous output.  The call returns the output as it was, whatever it contained. *)
Theorem C62_strided_refuted :
  (forall (V : Type) si so o (m : Z -> V) x out, reshape si so = Ok o -> shapein o <> shapeout o ->
     a_shape x = shapein o -> a_shape out = shapeout o ->
     ~ packed_array (a_offset out) (a_shape out) (map snd (a_dims out)) -> call o m x out = Ok m) /\
  ~ (forall si so o (m : Z -> Z) x out, reshape si so = Ok o -> a_shape x = shapein o -> a_shape out = shapeout o ->
     (forall i j, In i (indices (a_shape out)) -> In j (indices (a_shape out)) ->
        address (a_offset out) (map snd (a_dims out)) i = address (a_offset out) (map snd (a_dims out)) j -> i = j) ->
     exists m', call o m x out = Ok m' /\
     in_order m' (a_offset out) (a_shape out) (map snd (a_dims out)) = in_order m (a_offset x) (a_shape x) (map snd (a_dims x))).
Proof. split; [|exact strided_counterexample]. intros V si so o m x out R. apply call_strided. exact (reshape_well_formed R). Qed.

(** Finding: BlockColumnOperator([ReshapeOperator(n, (n, 1)), ...], axisout=1) leaves its output uninitialised when n > 1 and there are
    several blocks: each block is given the column output[:, j:j+1], which is not contiguous, and writes nothing to it. *)
Theorem C62_column_refuted : forall (V : Type) (n k j : nat) (m : Z -> V) x p, (2 <= n)%nat -> (2 <= k)%nat -> a_shape x = [n] ->
  exists o, reshape (Some (Int n)) (Some (Tuple [n; 1%nat])) = Ok o /\ call o m x (column (new_array p [n; k]) j) = Ok m.
Proof.
  intros V n k j m x p N K X. exists (Reshape [n] [n; 1%nat]). split; [exact (reshape_column n)|].
  apply (call_strided m (reshape_well_formed (reshape_column n))); [discriminate|exact X|reflexivity|].
  intros P. apply contiguous_spec in P. rewrite column_strided in P by assumption. discriminate P.
Qed.
Example C62_column_refuted_ex : exists m', call (Reshape [3] [3; 1])%nat squares (new_array 1 [3%nat]) (column (new_array 100 [3; 2]%nat) 1) = Ok m' /\
  map m' [101; 103; 105] = [10201; 10609; 11025].
Proof. eexists. split; reflexivity. Qed.

(** The transpose swaps the shapes.  It undoes the operator, whose scalar products, or any function of the elements of two arrays in their
    order, can be taken on either side. *)
Theorem C62_transpose : forall (V W : Type) si so o (m : Z -> V) x y ox ty (dot : list V -> list V -> W), reshape si so = Ok o ->
  a_shape x = shapein o -> a_shape y = shapeout o -> exists t, transpose o = Ok t /\ shapein t = shapeout o /\ shapeout t = shapein o /\
  compose t o = Ok (Identity (shapein o)) /\ compose o t = Ok (Identity (shapeout o)) /\
  exists mx my, call o m x (new_array ox (shapeout o)) = Ok mx /\ call t m y (new_array ty (shapein o)) = Ok my /\
    dot (elements mx (new_array ox (shapeout o))) (elements m y) = dot (elements m x) (elements my (new_array ty (shapein o))).
Proof.
  intros V W si so o m x y ox ty dot R A B. assert (WF := reshape_well_formed R). destruct (transpose_ok WF) as (t & T & WT & T1 & T2).
  exists t. split; [exact T|]. split; [exact T1|]. split; [exact T2|]. split; [now apply compose_inverse|split].
  - rewrite <- T1. apply compose_inverse; congruence.
  - destruct (@call_ok V o m x (new_array ox (shapeout o)) WF A (new_array_shape _ _) (@new_array_packed _ _)) as (mx & C1 & E1 & _).
    destruct (@call_ok V t m y (new_array ty (shapein o)) WT) as (my & C2 & E2 & _);
      [congruence|rewrite T2; apply new_array_shape|apply new_array_packed|].
    exists mx, my. split; [exact C1|]. split; [exact C2|]. now rewrite E1, E2.
Qed.
Example C62_transpose_ex : transpose (Reshape [3; 2] [6])%nat = Ok (Reshape [6] [3; 2])%nat.
Proof. reflexivity. Qed.

(** The composition of two reshaping operators is accepted if their shapes match, and then gives the elements that one gets by calling
    them one after the other. *)
Theorem C62_composition : forall (V : Type) s1 t1 s2 t2 o1 o2 (m : Z -> V) x out q, reshape s1 t1 = Ok o1 -> reshape s2 t2 = Ok o2 ->
  (shapein o1 <> shapeout o2 -> compose o1 o2 = Raise ValueError) /\
  (shapein o1 = shapeout o2 -> a_shape x = shapein o2 -> a_shape out = shapeout o1 ->
   packed_array (a_offset out) (a_shape out) (map snd (a_dims out)) ->
   exists o m' m2 m1, compose o1 o2 = Ok o /\ shapein o = shapein o2 /\ shapeout o = shapeout o1 /\
     call o m x out = Ok m' /\ call o2 m x (new_array q (shapeout o2)) = Ok m2 /\ call o1 m2 (new_array q (shapeout o2)) out = Ok m1 /\
     elements m' out = elements m1 out).
Proof.
  intros V s1 t1 s2 t2 o1 o2 m x out q R1 R2. assert (W1 := reshape_well_formed R1). assert (W2 := reshape_well_formed R2).
  split; [apply compose_errors|]. intros E A B P. destruct (compose_ok W1 W2 E) as (o & C & W & Z1 & Z2).
  destruct (@call_ok V o m x out W) as (m' & K & K1 & _); [congruence|congruence|exact P|].
  destruct (@call_ok V o2 m x (new_array q (shapeout o2)) W2 A (new_array_shape _ _) (@new_array_packed _ _)) as (m2 & L & L1 & _).
  destruct (@call_ok V o1 m2 (new_array q (shapeout o2)) out W1) as (m1 & M & M1 & _); [rewrite E; apply new_array_shape|exact B|exact P|].
  exists o, m', m2, m1. repeat (split; [assumption|]). congruence.
Qed.
Example C62_composition_ex : compose (Reshape [6] [2; 3])%nat (Reshape [3; 2] [6])%nat = Ok (Reshape [3; 2] [2; 3])%nat /\
  compose (Reshape [6] [3; 2])%nat (Reshape [3; 2] [6])%nat = Ok (Identity [3; 2]%nat).
Proof. split; reflexivity. Qed.

Print Assumptions C62_construction.
Print Assumptions C62_elements.
Print Assumptions C62_same_shape.
Print Assumptions C62_shapes.
Print Assumptions C62_strided_refuted.
Print Assumptions C62_column_refuted.
Print Assumptions C62_transpose.
Print Assumptions C62_composition.
