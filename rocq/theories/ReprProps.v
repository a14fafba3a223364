(** C70: the representation of an operator gives the arguments that build it. *)
From Coq Require Import List Arith Bool String DecimalString Lia.
From Verif Require Import Base ReprModel ReprSpec ReprProofs.
Import ListNotations.
Open Scope string_scope.

(** For a constructor without *args nor **keywords that keeps its arguments as attributes, the representation is a call that Python accepts and that gives
    to each parameter the value kept in the operator, or a default that stands for it. *)
Theorem C70_call same is_ (o : operator) :
  is_signature (signature o) -> (forall n, In (n, Required) (signature o) -> hidden o n = false /\ getattr o n <> Method) ->
  (forall n, n = "shapein" \/ n = "shapeout" -> In n (map fst (signature o)) \/ shown same is_ o (n, Default None_) = []) ->
  exists b, bind (signature o) (text_call same is_ o) = Some b /\ map fst b = map fst (signature o) /\
    forall n v, In (n, v) b -> v = getattr o n \/ In (n, Default v) (signature o) /\ (hidden o n = true \/ getattr o n = Method \/ stands_for same is_ v (getattr o n)).
Proof.
  intros S V K. assert (shapes_ok same is_ o) as K' by (intros n N; destruct (K n N) as [A|A]; [left; apply mem_in, A|right; exact A]). rewrite (bind_call S V K').
  eexists. split; [reflexivity|]. split; [rewrite map_map; reflexivity|]. intros n v I. apply in_map_iff in I. destruct I as ([m k] & P & I). injection P as -> <-. unfold taken. cbn [fst snd].
  destruct k as [|d|]; [left; reflexivity| |left; reflexivity]. unfold expected. destruct (hidden o n) eqn:H; [right; split; [exact I|left; reflexivity]|].
  destruct (getattr o n) as [| | | | | |] eqn:G; try (right; split; [exact I|right; left; reflexivity]); unfold is_default, stands_for;
    (match goal with |- context [same ?v d] => destruct (same v d) as [[|]|e] eqn:Q end; [right; split; [exact I|right; right; left; exact Q]|left; reflexivity|]);
    (match goal with |- context [is_ ?v d] => destruct (is_ v d) eqn:J end; [right; split; [exact I|right; right; right; split; [exists e; exact Q|exact J]]|left; reflexivity]).
Qed.
Example C70_call_case : is_signature (signature user) /\ repr eq is_same user = Ok "MyOperator(array([[1, ..., 6]], dtype=int64), gain=2, shapein=3)" /\
  bind (signature user) (text_call eq is_same user) = Some [("data", Array None 2 6 "1" "6" "int64"); ("gain", Other "2" "2"); ("shapein", Tuple [3])].
Proof. split; [split; [repeat constructor; cbn; intuition discriminate|reflexivity]|split; reflexivity]. Qed.

(** No representation shows an argument of another parameter, nor the same twice, and arguments come in the order of the parameters: what is shown is a
    sublist of the parameters with their attributes. *)
Theorem C70_sources same is_ o a : In a (arguments same is_ o) ->
  (In (fst (snd a)) (map fst (signature o)) \/ fst (snd a) = "shapein" \/ fst (snd a) = "shapeout") /\
  (attribute o (fst (snd a)) = Some (snd (snd a)) \/ attribute o (fst (snd a)) = None /\ snd (snd a) = None_) /\ (fst a = None \/ fst a = Some (fst (snd a))).
Proof.
  intros I. unfold arguments in I. apply in_flat_map in I. destruct I as ([n k] & P & I). apply in_map_iff in I. destruct I as (x & <- & X). cbn [fst snd].
  split.
  - apply (in_map fst) in P. destruct (parameters_names P) as [Q|[Q|Q]]; tauto.
  - unfold shown in X. destruct (hidden o n) eqn:H; [destruct X|].
    assert (snd x = getattr o n /\ (fst x = None \/ fst x = Some n)) as (U & W).
    { destruct (getattr o n); try (destruct X; fail); destruct k; cbn [In] in X; try (destruct (is_default _ _ _ _)); cbn [In] in X; repeat (destruct X as [<-|X]); try destruct X; cbn [fst snd]; tauto. }
    split; [|exact W]. rewrite U. unfold getattr. destruct (attribute o n); [left; reflexivity|right; split; reflexivity].
Qed.
Example C70_sources_case : arguments eq is_same user = [(None, ("data", Array None 2 6 "1" "6" "int64")); (Some "gain", ("gain", Other "2" "2")); (Some "shapein", ("shapein", Tuple [3]))].
Proof. reflexivity. Qed.

(** An argument that is kept, is not a method and differs from its default is shown, with its name if it is optional; one that equals its default is not. *)
Theorem C70_shown same is_ o n k v : In (n, k) (signature o) -> ~ In n ["flags"; "self"; "shapein"; "shapeout"; "reshapeout"] -> attribute o n = Some v -> v <> Method ->
  match k with
  | Default d => (same v d = Ok false \/ (exists e, same v d = Raise e) /\ is_ v d = false) -> In (Some n, (n, v)) (arguments same is_ o)
  | _ => In (None, (n, v)) (arguments same is_ o)
  end /\
  (NoDup (map fst (parameters o)) -> forall d, k = Default d -> same v d = Ok true -> forall a, In a (arguments same is_ o) -> fst (snd a) <> n).
Proof.
  intros I N A M. assert (hidden o n = false) as H by (apply not_hidden; exact N). assert (getattr o n = v) as G by (unfold getattr; rewrite A; reflexivity). split.
  - assert (In (n, k) (parameters o)) as P by (destruct (parameters_extra o) as (e & -> & _); apply in_or_app; left; exact I).
    destruct k as [|d|]; [|intros D|]; unfold arguments; apply in_flat_map; eexists; (split; [exact P|]); unfold shown; rewrite H, G.
    + destruct v; try congruence; left; reflexivity.
    + replace (is_default same is_ v d) with false by (unfold is_default; destruct D as [-> |[[e ->] ->]]; reflexivity). destruct v; try congruence; left; reflexivity.
    + destruct v; try congruence; left; reflexivity.
  - intros U d -> D a X E. unfold arguments in X. apply in_flat_map in X. destruct X as ([m k] & P & X). apply in_map_iff in X. destruct X as (x & <- & X). cbn [fst snd] in E. subst m.
    assert (k = Default d) as -> by (apply (unique_kind U P); destruct (parameters_extra o) as (e & -> & _); apply in_or_app; left; exact I).
    unfold shown in X. rewrite H, G in X. unfold is_default in X. rewrite D in X. destruct v; destruct X.
Qed.
Example C70_shown_case : In (Some "gain", ("gain", Other "2" "2")) (arguments eq is_same user) /\ eq (Other "2" "2") (Other "1" "1") = Ok false.
Proof. split; [right; left; reflexivity|reflexivity]. Qed.

(** The flags are never shown.  A shape is shown when it is not implicit and is not None, also when the constructor has no such parameter. *)
Theorem C70_hidden same is_ o a : In a (arguments same is_ o) ->
  fst (snd a) <> "flags" /\ (implicit_in o = true -> fst (snd a) <> "shapein") /\ (implicit_out o = true -> fst (snd a) <> "shapeout").
Proof.
  intros I. unfold arguments in I. apply in_flat_map in I. destruct I as ([n k] & P & I). apply in_map_iff in I. destruct I as (x & <- & X). cbn [fst snd]. unfold shown in X.
  destruct (hidden o n) eqn:H; [destruct X|]. unfold hidden in H. split; [|split].
  - intros ->. discriminate H.
  - intros J ->. rewrite J in H. discriminate H.
  - intros J ->. rewrite J in H. discriminate H.
Qed.
Theorem C70_shapes same is_ o s : (same (Tuple s) None_ = Ok false) ->
  (implicit_in o = false -> ~ In "shapein" (map fst (signature o)) -> attribute o "shapein" = Some (Tuple s) -> In (Some "shapein", ("shapein", Tuple s)) (arguments same is_ o)) /\
  (implicit_out o = false -> ~ In "shapeout" (map fst (signature o)) -> attribute o "shapeout" = Some (Tuple s) -> In (Some "shapeout", ("shapeout", Tuple s)) (arguments same is_ o)).
Proof.
  intros D. split; intros J N A; unfold arguments; apply in_flat_map.
  - exists ("shapein", Default None_). split; [apply shapein_added, N|]. unfold shown, hidden, getattr. rewrite A, J. cbn [String.eqb Ascii.eqb Bool.eqb orb andb]. unfold is_default. rewrite D. left. reflexivity.
  - exists ("shapeout", Default None_). split; [apply shapeout_added, N|]. unfold shown, hidden, getattr. rewrite A, J. cbn [String.eqb Ascii.eqb Bool.eqb orb andb]. unfold is_default. rewrite D. left. reflexivity.
Qed.
Example C70_shapes_case : In (Some "shapein", ("shapein", Tuple [3])) (arguments eq is_same shaped) /\ repr eq is_same shaped = Ok "Shaped(shapein=3)" /\ Forall (fun a => fst (snd a) <> "flags") (arguments eq is_same shaped).
Proof. split; [left; reflexivity|split; [reflexivity|repeat constructor; discriminate]]. Qed.

(** The representation is the name of the class and the texts of the arguments shown, separated by commas between parentheses; keywords are written before their values. *)
Theorem C70_text same is_ o n t : name o = Some n -> repr same is_ o = Ok t ->
  exists l, t = n ++ "(" ++ String.concat ", " l ++ ")" /\
  Forall2 (fun a s => exists v, text o (fst (snd a)) (snd (snd a)) = Ok v /\ s = match fst a with None => v | Some k => k ++ "=" ++ v end) (arguments same is_ o) l.
Proof.
  intros N. unfold repr. rewrite N. destruct (mapM (argument_text o) (arguments same is_ o)) as [l|e] eqn:M; cbn; intros E; [|discriminate E]. injection E as <-. exists l. rewrite join_concat. split; [reflexivity|].
  apply mapM_texts in M. clear N. induction M as [|a s la ls X M IH]; constructor; [|exact IH]. unfold argument_text in X. destruct (text o (fst (snd a)) (snd (snd a))) as [v|e]; cbn in X; [|discriminate X]. injection X as <-. exists v. split; reflexivity.
Qed.
Print Assumptions C70_text.
Example C70_text_case : repr eq is_same shaped = Ok ("Shaped" ++ "(" ++ String.concat ", " ["shapein" ++ "=" ++ "3"] ++ ")").
Proof. reflexivity. Qed.

(** A shape with one dimension is written as a number, the others as the numbers separated by commas between parentheses. *)
Theorem C70_shape_text o n l : n = "shapein" \/ n = "shapeout" ->
  text o n (Tuple l) = Ok (match l with [d] => NilZero.string_of_uint (Nat.to_uint d) | _ => "(" ++ String.concat "," (map (fun d => NilZero.string_of_uint (Nat.to_uint d)) l) ++ ")" end).
Proof.
  intros N. assert (text o n (Tuple l) = Ok (strshape l)) as -> by (destruct N as [-> | ->]; reflexivity). f_equal. unfold strshape. destruct l as [|d [|e l]]; [reflexivity|reflexivity|]. rewrite join_concat. reflexivity.
Qed.
Print Assumptions C70_shape_text.
Example C70_shape_text_case : text shaped "shapein" (Tuple [12; 3]) = Ok "(12,3)" /\ text shaped "shapeout" (Tuple [3]) = Ok "3".
Proof. split; reflexivity. Qed.

(** The text of an array shows its first and its last element between as many brackets as dimensions. *)
Theorem C70_arrays o n c ndim size first last dtype : n <> "reshapein" -> (0 < size)%nat ->
  text o n (Array c ndim size first last dtype) =
  Ok (match c with None => "array" | Some c => c end ++ "(" ++ times ndim "[" ++ (match size with 1 => first | 2 => first ++ ", " ++ last | _ => first ++ ", ..., " ++ last end) ++ times ndim "]" ++ ", dtype=" ++ dtype ++ ")").
Proof.
  intros N L. unfold text. apply String.eqb_neq in N. rewrite N. cbn [andb]. destruct size as [|[|[|size]]]; [lia| | |]; cbn [Nat.eqb Nat.ltb Nat.leb].
  - reflexivity.
  - rewrite !append_assoc. reflexivity.
  - rewrite !append_assoc. reflexivity.
Qed.
Example C70_arrays_case : text user "data" (Array (Some "matrix") 2 2 "1." "2." "float64") = Ok "matrix([[1., 2.]], dtype=float64)".
Proof. reflexivity. Qed.

(** Finding: inspect.signature lists **keywords (core.py 1591-1593), whose default is inspect._empty like that of a required parameter, so __repr__ adds a
    positional None to the representation of every operator whose constructor has **keywords, which nearly all the classes of the library have: ClipOperator(0, 1)
    is shown as ClipOperator(0, 1, None), a call that fails.  When a keyword is shown before, the text is not Python.  When the call is accepted, an optional
    parameter takes None. *)
Theorem C70_keywords_refuted :
  (forall same is_ (o : operator) ps k b, signature o = (ps ++ [(k, Variadic)])%list -> ordered ps = true ->
    (forall n, In (n, Required) ps -> hidden o n = false /\ getattr o n <> Method) -> hidden o k = false -> attribute o k = None ->
    bind (signature o) (text_call same is_ o) = Some b -> exists n d, In (n, Default d) ps /\ In (n, None_) b) /\
  repr eq is_same clip = Ok "ClipOperator(0, 1, None)" /\ bind (signature clip) (text_call eq is_same clip) = None /\
  repr eq is_same (round "rtz") = Ok "RoundOperator(method='rtz', None)" /\ bind (signature (round "rtz")) (text_call eq is_same (round "rtz")) = None /\
  repr eq is_same (round "rhte") = Ok "RoundOperator(None)" /\ bind (signature (round "rhte")) (text_call eq is_same (round "rhte")) = Some [("method", None_)].
Proof.
  split; [|repeat split]. intros same is_ o ps k b G D V H A B. assert (getattr o k = None_) as N by (unfold getattr; rewrite A; reflexivity).
  rewrite <- N. refine (bind_variadic G D V _ B). split; [exact H|rewrite N; discriminate].
Qed.

(** Finding: an argument that the constructor does not keep is shown as None (core.py 1619): ProductOperator, MaxOperator and MinOperator do not keep skipna, so
    MaxOperator(axis=0, skipna=True) and MaxOperator(axis=0) are both shown as MaxOperator(axis=0, skipna=None, None). *)
Theorem C70_not_kept_refuted :
  (forall same is_ o n d, In (n, Default d) (signature o) -> hidden o n = false -> attribute o n = None -> same None_ d = Ok false -> In (Some n, (n, None_)) (arguments same is_ o)) /\
  repr eq is_same maximum = Ok "MaxOperator(axis=0, skipna=None, None)".
Proof.
  split; [|reflexivity]. intros same is_ o n d I H A N. unfold arguments. apply in_flat_map. exists (n, Default d). split.
  - destruct (parameters_extra o) as (e & -> & _). apply in_or_app. left. exact I.
  - unfold shown. rewrite H. unfold getattr. rewrite A. unfold is_default. rewrite N. left. reflexivity.
Qed.

(** Finding: the representation of an array reads its first element (core.py 1650): repr raises IndexError for an operator that keeps an empty array, such as
    MaximumOperator(np.zeros(0)). *)
Theorem C70_empty_refuted : repr eq is_same empty_array = Raise IndexError /\
  forall o n c ndim size a b d, (exists t, text o n (Array c ndim size a b d) = Ok t) <-> (size > 0)%nat \/ String.eqb n "reshapein" && square o && implicit_out o = true.
Proof.
  split; [reflexivity|]. intros o n c ndim size a b d. unfold text. destruct (String.eqb n "reshapein" && square o && implicit_out o); [split; [right; reflexivity|intros _; eexists; reflexivity]|].
  destruct size; cbn [Nat.eqb]; split; [intros [t T]; discriminate T|intros [X|X]; [lia|discriminate X]|left; lia|intros _; eexists; reflexivity].
Qed.

Print Assumptions C70_call.
Print Assumptions C70_keywords_refuted.
Print Assumptions C70_not_kept_refuted.
