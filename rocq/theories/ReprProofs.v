From Coq Require Import List Arith Bool String Lia.
From Verif Require Import Base ReprModel ReprSpec.
Import ListNotations.
Set Implicit Arguments. Unset Strict Implicit.

Section Call.
Variable same : value -> value -> result bool.
Variable is_ : value -> value -> bool.
Variable o : operator.
Local Notation sh := (shown same is_ o).
Definition tc (ps : list parameter) : call := flat_map sh ps.
Lemma text_call_tc : text_call same is_ o = tc (parameters o).
Proof.
  unfold text_call, arguments, tc. induction (parameters o) as [|p ps IH]; [reflexivity|]. cbn [flat_map]. rewrite map_app, IH. f_equal. rewrite map_map. cbn [fst snd].
  rewrite <- (map_id (sh p)) at 2. apply map_ext. intros [a b]. reflexivity.
Qed.
Lemma tc_app ps qs : tc (ps ++ qs) = (tc ps ++ tc qs)%list.
Proof. apply flat_map_app. Qed.

(** What the loop gives for a parameter *)
Definition expected (n : string) (d : value) : option value :=
  if hidden o n then None else match getattr o n with Method => None | v => if is_default same is_ v d then None else Some v end.
Lemma shown_default n d : sh (n, Default d) = match expected n d with Some v => [(Some n, v)] | None => [] end.
Proof. unfold shown, expected. destruct (hidden o n); [reflexivity|]. destruct (getattr o n); try reflexivity; destruct (is_default _ _ _ _); reflexivity. Qed.
Definition visible (n : string) : Prop := hidden o n = false /\ getattr o n <> Method.
Lemma shown_required n : visible n -> sh (n, Required) = [(None, getattr o n)].
Proof. intros [H M]. unfold shown. rewrite H. destruct (getattr o n); try reflexivity. congruence. Qed.
Lemma shown_variadic n : visible n -> sh (n, Variadic) = [(None, getattr o n)].
Proof. intros [H M]. unfold shown. rewrite H. destruct (getattr o n); try reflexivity. congruence. Qed.
Lemma shown_names p a : In a (sh p) -> fst a = None \/ fst a = Some (fst p).
Proof.
  destruct p as [n k]. unfold shown. destruct (hidden o n); [intros []|]. destruct (getattr o n); try (intros []; fail); destruct k; cbn [In]; try (destruct (is_default _ _ _ _)); cbn [In];
    intros H; repeat (destruct H as [<-|H]); try destruct H; cbn [fst]; tauto.
Qed.

Lemma defaults_positionals ps : defaults_only ps = true -> positionals (tc ps) = [] /\ keywords_only (tc ps) = true.
Proof.
  induction ps as [|[n [|d|]] ps IH]; intros D; [split; reflexivity|discriminate D| |discriminate D]. cbn [defaults_only] in D. destruct (IH D) as [P K].
  unfold tc in *. cbn [flat_map]. rewrite shown_default. destruct (expected n d); cbn [app positionals flat_map keywords_only fst snd]; split; assumption.
Qed.
Lemma ordered_well_formed ps : ordered ps = true -> (forall n, In (n, Required) ps -> visible n) -> well_formed (tc ps) = true.
Proof.
  assert (forall c, keywords_only c = true -> well_formed c = true) as K by (intros [|[[n|] v] c] H; [reflexivity|exact H|discriminate H]).
  induction ps as [|[n [|d|]] ps IH]; intros D V; [reflexivity| | |discriminate D].
  - unfold tc. cbn [flat_map]. rewrite shown_required by (apply V; left; reflexivity). cbn [app well_formed]. apply IH; [exact D|]. intros m M. apply V. right. exact M.
  - apply K. cbn [ordered] in D. apply (defaults_positionals (ps := (n, Default d) :: ps) D).
Qed.

Lemma keyword_absent ps n : ~ In n (map fst ps) -> keyword (tc ps) n = None.
Proof.
  intros N. unfold keyword. destruct (find _ (tc ps)) as [a|] eqn:F; [|reflexivity]. exfalso. apply find_some in F. destruct F as [I M].
  unfold tc in I. apply in_flat_map in I. destruct I as (p & P & A). destruct (shown_names A) as [X|X]; rewrite X in M; [discriminate M|]. apply String.eqb_eq in M. subst n. apply N. apply in_map. exact P.
Qed.
Lemma keyword_cons a c n : keyword (a :: c) n = if (match fst a with Some m => String.eqb n m | None => false end) then Some (snd a) else keyword c n.
Proof. unfold keyword. cbn [find]. destruct (match fst a with Some m => String.eqb n m | None => false end); reflexivity. Qed.
Lemma keyword_default ps n d : NoDup (map fst ps) -> In (n, Default d) ps -> (forall m, In (m, Required) ps -> visible m) -> (forall p, In p ps -> is_variadic p = false) -> keyword (tc ps) n = expected n d.
Proof.
  induction ps as [|[m k] ps IH]; intros N I V NV; [destruct I|]. cbn [map fst] in N. inversion N as [|? ? A B]; subst.
  assert (forall p, In p ps -> is_variadic p = false) as NV' by (intros p P; apply NV; right; exact P).
  assert (forall m, In (m, Required) ps -> visible m) as V' by (intros p P; apply V; right; exact P).
  unfold tc. cbn [flat_map]. fold (tc ps). destruct I as [X|I].
  - injection X as -> ->. rewrite shown_default. destruct (expected n d) as [v|] eqn:X; cbn [app].
    + rewrite keyword_cons. cbn [fst snd]. rewrite String.eqb_refl. reflexivity.
    + apply keyword_absent, A.
  - assert (n <> m) as D by (intros ->; apply A; apply (in_map fst) in I; exact I). destruct k as [|e|].
    + rewrite shown_required by (apply V; left; reflexivity). cbn [app]. rewrite keyword_cons. cbn [fst]. apply IH; assumption.
    + rewrite shown_default. destruct (expected m e); cbn [app]; [|apply IH; assumption]. rewrite keyword_cons. cbn [fst]. apply String.eqb_neq in D. rewrite D. apply IH; assumption.
    + specialize (NV (m, Variadic) (or_introl eq_refl)). discriminate NV.
Qed.
Lemma keyword_required ps n : NoDup (map fst ps) -> In (n, Required) ps -> (forall m, In (m, Required) ps -> visible m) -> (forall p, In p ps -> is_variadic p = false) -> keyword (tc ps) n = None.
Proof.
  induction ps as [|[m k] ps IH]; intros N I V NV; [destruct I|]. cbn [map fst] in N. inversion N as [|? ? A B]; subst.
  assert (forall p, In p ps -> is_variadic p = false) as NV' by (intros p P; apply NV; right; exact P).
  assert (forall m, In (m, Required) ps -> visible m) as V' by (intros p P; apply V; right; exact P).
  unfold tc. cbn [flat_map]. fold (tc ps). destruct I as [X|I].
  - injection X as -> ->. rewrite shown_required by (apply V; left; reflexivity). cbn [app]. rewrite keyword_cons. cbn [fst]. apply keyword_absent, A.
  - assert (n <> m) as D by (intros ->; apply A; apply (in_map fst) in I; exact I). destruct k as [|e|].
    + rewrite shown_required by (apply V; left; reflexivity). cbn [app]. rewrite keyword_cons. cbn [fst]. apply IH; assumption.
    + rewrite shown_default. destruct (expected m e); cbn [app]; [|apply IH; assumption]. rewrite keyword_cons. cbn [fst]. apply String.eqb_neq in D. rewrite D. apply IH; assumption.
    + specialize (NV (m, Variadic) (or_introl eq_refl)). discriminate NV.
Qed.

(** The value a parameter takes *)
Definition taken (p : parameter) : value := match snd p with Default d => match expected (fst p) d with Some v => v | None => d end | _ => getattr o (fst p) end.
Lemma fill_defaults ps kw : defaults_only ps = true -> (forall n d, In (n, Default d) ps -> kw n = expected n d) -> fill ps [] kw = Some (map (fun p => (fst p, taken p)) ps).
Proof.
  induction ps as [|[n [|d|]] ps IH]; intros D K; [reflexivity|discriminate D| |discriminate D]. cbn [defaults_only] in D. cbn [fill map fst]. rewrite (K n d) by (left; reflexivity).
  unfold taken at 1. cbn [snd fst]. rewrite IH; [|exact D|intros m e M; apply K; right; exact M]. destruct (expected n d); reflexivity.
Qed.
Lemma fill_ordered ps kw : ordered ps = true -> (forall n, In (n, Required) ps -> visible n) -> (forall n d, In (n, Default d) ps -> kw n = expected n d) -> (forall n, In (n, Required) ps -> kw n = None) ->
  fill ps (positionals (tc ps)) kw = Some (map (fun p => (fst p, taken p)) ps).
Proof.
  induction ps as [|[n [|d|]] ps IH]; intros D V K R; [reflexivity| | |discriminate D].
  - unfold tc. cbn [flat_map]. rewrite shown_required by (apply V; left; reflexivity). fold (tc ps). cbn [app positionals flat_map fst snd fill map]. fold (positionals (tc ps)). rewrite (R n) by (left; reflexivity).
    rewrite IH; [reflexivity|exact D|intros m M; apply V; right; exact M|intros m e M; apply K; right; exact M|intros m M; apply R; right; exact M].
  - cbn [ordered] in D. assert (P := proj1 (defaults_positionals D)). rewrite P. apply fill_defaults; assumption.
Qed.

Lemma defaults_not_variadic ps : defaults_only ps = true -> forall p, In p ps -> is_variadic p = false.
Proof. induction ps as [|[n [|d|]] ps IH]; intros D p I; try discriminate D; [destruct I|]. destruct I as [<-|I]; [reflexivity|apply IH; assumption]. Qed.
Lemma ordered_not_variadic ps : ordered ps = true -> forall p, In p ps -> is_variadic p = false.
Proof.
  induction ps as [|[n [|d|]] ps IH]; intros D p I; [destruct I| | |discriminate D].
  - destruct I as [<-|I]; [reflexivity|apply IH; assumption].
  - apply (defaults_not_variadic (ps := (n, Default d) :: ps)); assumption.
Qed.
Lemma filter_all (A : Type) (f : A -> bool) l : (forall x, In x l -> f x = true) -> filter f l = l.
Proof. induction l as [|x l IH]; intros H; [reflexivity|]. cbn [filter]. rewrite (H x) by (left; reflexivity). f_equal. apply IH. intros y Y. apply H. right. exact Y. Qed.
Lemma tc_names ps n : In n (keyword_names (tc ps)) -> In n (map fst ps).
Proof.
  unfold keyword_names. intros I. apply in_flat_map in I. destruct I as (a & A & B). unfold tc in A. apply in_flat_map in A. destruct A as (p & P & A).
  destruct (shown_names A) as [X|X]; rewrite X in B; cbn [In] in B; [destruct B|]. destruct B as [<-|[]]. apply in_map, P.
Qed.
Lemma mem_in n ps : mem n ps = true <-> In n (map fst ps).
Proof.
  unfold mem. rewrite existsb_exists, in_map_iff. split; intros (p & A & B).
  - exists p. apply String.eqb_eq in B. split; [symmetry; exact B|exact A].
  - exists p. split; [exact B|]. rewrite A. apply String.eqb_refl.
Qed.

(** The shapes that are not in the signature are not shown *)
Definition shapes_ok : Prop := forall n, n = "shapein"%string \/ n = "shapeout"%string -> mem n (signature o) = true \/ sh (n, Default None_) = [].
Lemma parameters_signature : shapes_ok -> tc (parameters o) = tc (signature o).
Proof.
  intros K. unfold parameters. destruct (K "shapein"%string (or_introl eq_refl)) as [A|A], (K "shapeout"%string (or_intror eq_refl)) as [B|B].
  - rewrite A, B. reflexivity.
  - rewrite A. destruct (mem "shapeout" (signature o)); [reflexivity|]. rewrite tc_app. unfold tc at 2. cbn [flat_map]. rewrite B. apply app_nil_r.
  - destruct (mem "shapein" (signature o)); [rewrite B; reflexivity|]. replace (mem "shapeout" (signature o ++ [("shapein"%string, Default None_)])) with true by (symmetry; apply mem_in; rewrite map_app; apply in_or_app; left; apply mem_in; exact B).
    rewrite tc_app. unfold tc at 2. cbn [flat_map]. rewrite A. apply app_nil_r.
  - assert (forall l, tc (if mem "shapeout" l then l else (l ++ [("shapeout"%string, Default None_)])%list) = tc l) as L.
    { intros l. destruct (mem "shapeout" l); [reflexivity|]. rewrite tc_app. unfold tc at 2. cbn [flat_map]. rewrite B. apply app_nil_r. }
    rewrite L. destruct (mem "shapein" (signature o)); [reflexivity|]. rewrite tc_app. unfold tc at 2. cbn [flat_map]. rewrite A. apply app_nil_r.
Qed.
Lemma bind_call : is_signature (signature o) -> (forall n, In (n, Required) (signature o) -> visible n) -> shapes_ok ->
  bind (signature o) (text_call same is_ o) = Some (map (fun p => (fst p, taken p)) (signature o)).
Proof.
  intros [N D] V K. rewrite text_call_tc, (parameters_signature K). unfold bind. pose proof (ordered_not_variadic D) as NV.
  rewrite filter_all by (intros p P; rewrite (NV p P); reflexivity). rewrite (ordered_well_formed D V).
  replace (forallb (fun n => mem n (signature o)) (keyword_names (tc (signature o)))) with true by (symmetry; apply forallb_forall; intros n I; apply mem_in, tc_names, I). cbn [andb orb].
  apply fill_ordered; [exact D|exact V| |].
  - intros n d I. apply keyword_default; assumption.
  - intros n I. apply keyword_required; assumption.
Qed.

(** ** Constructors with **keywords *)
Lemma positionals_app (c c' : call) : positionals (c ++ c')%list = (positionals c ++ positionals c')%list.
Proof. apply flat_map_app. Qed.
Lemma parameters_extra : exists e, parameters o = (signature o ++ e)%list /\ defaults_only e = true.
Proof.
  unfold parameters. destruct (mem "shapein" (signature o)); [|destruct (mem "shapeout" (signature o ++ _)%list)].
  - destruct (mem "shapeout" (signature o)); [exists []; split; [rewrite app_nil_r; reflexivity|reflexivity]|eexists; split; reflexivity].
  - eexists; split; reflexivity.
  - rewrite <- app_assoc. eexists; split; reflexivity.
Qed.
Lemma fill_extra ps kw v b : ordered ps = true -> (forall n, In (n, Required) ps -> visible n) -> fill ps (positionals (tc ps) ++ [v])%list kw = Some b -> exists n d, In (n, Default d) ps /\ In (n, v) b.
Proof.
  revert b. induction ps as [|[n [|d|]] ps IH]; intros b D V F; [discriminate F| | |discriminate D].
  - unfold tc in F. cbn [flat_map] in F. rewrite shown_required in F by (apply V; left; reflexivity). fold (tc ps) in F. cbn [app positionals flat_map fst snd fill] in F. fold (positionals (tc ps)) in F.
    destruct (kw n); [discriminate F|]. destruct (fill ps (positionals (tc ps) ++ [v])%list kw) as [b'|] eqn:X; [|discriminate F]. cbn [option_map] in F. injection F as <-.
    destruct (IH b' D) as (m & d & A & B); [intros m M; apply V; right; exact M|reflexivity|]. exists m, d. split; right; assumption.
  - cbn [ordered] in D. assert (P := proj1 (defaults_positionals D)). rewrite P in F. cbn [app fill] in F. destruct (kw n); [discriminate F|].
    destruct (fill ps [] kw) as [b'|]; [|discriminate F]. cbn [option_map] in F. injection F as <-. exists n, d. split; left; reflexivity.
Qed.
Lemma bind_variadic ps k b : signature o = (ps ++ [(k, Variadic)])%list -> ordered ps = true -> (forall n, In (n, Required) ps -> visible n) -> visible k ->
  bind (signature o) (text_call same is_ o) = Some b -> exists n d, In (n, Default d) ps /\ In (n, getattr o k) b.
Proof.
  intros G D V K. rewrite text_call_tc. destruct parameters_extra as (e & X & Y). rewrite X, G. unfold bind. destruct (_ && _); [|discriminate].
  rewrite filter_app, (filter_all (l := ps)) by (intros p P; rewrite (ordered_not_variadic D P); reflexivity). cbn [filter is_variadic snd negb]. rewrite app_nil_r.
  rewrite !tc_app, !positionals_app. destruct (defaults_positionals Y) as [-> _]. rewrite app_nil_r. unfold tc at 2. cbn [flat_map]. rewrite (shown_variadic K). cbn [app positionals flat_map fst snd]. apply fill_extra; assumption.
Qed.
End Call.

(** Examples.  Equality of values: == on arrays gives an array, whose truth value raises unless there is one element (left out here). *)
Open Scope string_scope.
Definition value_dec (a b : value) : {a = b} + {a <> b}.
Proof. decide equality; try apply string_dec; try (apply list_eq_dec, Nat.eq_dec); try apply Nat.eq_dec. decide equality. apply string_dec. Defined.
Definition eq (v d : value) : result bool := match v with Array _ _ _ _ _ _ => Raise ValueError | _ => Ok (if value_dec v d then true else false) end.
Definition is_same (v d : value) : bool := if value_dec v d then true else false.
Definition attributes (l : list (string * value)) (n : string) : option value := match find (fun p => String.eqb n (fst p)) l with Some p => Some (snd p) | None => None end.
(** An operator of a class written by a user: def __init__(self, data, gain=1, shapein=None) *)
Definition user : operator :=
  {| name := Some "MyOperator"; class_name := "MyOperator"; signature := [("data", Required); ("gain", Default (Other "1" "1")); ("shapein", Default None_)];
     attribute := attributes [("data", Array None 2 6 "1" "6" "int64"); ("gain", Other "2" "2"); ("shapein", Tuple [3])]; square := false; implicit_in := false; implicit_out := true |}.
(** ClipOperator(0, 1), nonlinear.py 266 *)
Definition clip : operator :=
  {| name := Some "ClipOperator"; class_name := "ClipOperator"; signature := [("minvalue", Required); ("maxvalue", Required); ("keywords", Variadic)];
     attribute := attributes [("minvalue", Other "0" "0"); ("maxvalue", Other "1" "1")]; square := true; implicit_in := true; implicit_out := true |}.
(** MaxOperator(axis=0, skipna=True), nonlinear.py 439; skipna is not kept *)
Definition maximum : operator :=
  {| name := Some "MaxOperator"; class_name := "MaxOperator"; signature := [("axis", Default None_); ("dtype", Default None_); ("skipna", Default (Other "False" "False")); ("keywords", Variadic)];
     attribute := attributes [("axis", Other "0" "0"); ("dtype", None_)]; square := false; implicit_in := false; implicit_out := true |}.
(** MaximumOperator(np.zeros(0)), nonlinear.py 561 *)
Definition empty_array : operator :=
  {| name := Some "MaximumOperator"; class_name := "MaximumOperator"; signature := [("value", Required); ("keywords", Variadic)];
     attribute := attributes [("value", Array None 1 0 "" "" "float64")]; square := true; implicit_in := true; implicit_out := true |}.
(** RoundOperator(m), nonlinear.py 716 *)
Definition round (m : string) : operator :=
  {| name := Some "RoundOperator"; class_name := "RoundOperator"; signature := [("method", Default (Other "'rhte'" "rhte")); ("keywords", Variadic)];
     attribute := attributes [("method", Other ("'" ++ m ++ "'") m)]; square := true; implicit_in := true; implicit_out := true |}.

Lemma parameters_names o n : In n (map fst (parameters o)) -> In n (map fst (signature o)) \/ n = "shapein" \/ n = "shapeout".
Proof.
  unfold parameters. destruct (mem "shapein" (signature o)); [destruct (mem "shapeout" (signature o))|destruct (mem "shapeout" (signature o ++ [("shapein", Default None_)])%list)]; rewrite ?map_app, ?in_app_iff; cbn [map fst In]; intuition.
Qed.
Lemma not_hidden o n : ~ In n ["flags"; "self"; "shapein"; "shapeout"; "reshapeout"] -> hidden o n = false.
Proof.
  intros N. unfold hidden. assert (forall m, In m ["flags"; "self"; "shapein"; "shapeout"; "reshapeout"] -> String.eqb n m = false) as H by (intros m M; apply String.eqb_neq; intros ->; apply N, M).
  rewrite !H by (cbn [In]; tauto). reflexivity.
Qed.
Lemma unique_kind (ps : list parameter) n k k' : NoDup (map fst ps) -> In (n, k) ps -> In (n, k') ps -> k = k'.
Proof.
  induction ps as [|q ps IH]; intros N I J; [destruct I|]. cbn [map] in N. inversion N as [|? ? Q R]; subst. destruct I as [->|I], J as [Y|J].
  - congruence.
  - exfalso. apply Q. apply (in_map fst) in J. exact J.
  - subst q. exfalso. apply Q. apply (in_map fst) in I. exact I.
  - apply IH; assumption.
Qed.
Lemma shapein_added o : ~ In "shapein" (map fst (signature o)) -> In ("shapein", Default None_) (parameters o).
Proof.
  intros N. unfold parameters. destruct (mem "shapein" (signature o)) eqn:M; [apply mem_in in M; contradiction|].
  destruct (mem "shapeout" _); rewrite ?in_app_iff; cbn [In]; tauto.
Qed.
Lemma shapeout_added o : ~ In "shapeout" (map fst (signature o)) -> In ("shapeout", Default None_) (parameters o).
Proof.
  intros N. unfold parameters. destruct (mem "shapeout" (if mem "shapein" (signature o) then signature o else (signature o ++ [("shapein", Default None_)])%list)) eqn:M.
  - exfalso. apply mem_in in M. apply N. destruct (mem "shapein" (signature o)); [exact M|]. rewrite map_app, in_app_iff in M. destruct M as [M|[M|[]]]; [exact M|discriminate M].
  - apply in_or_app. right. left. reflexivity.
Qed.
Lemma append_assoc (a b c : string) : ((a ++ b) ++ c = a ++ b ++ c)%string.
Proof. induction a as [|x a IH]; cbn; [reflexivity|]. rewrite IH. reflexivity. Qed.
(** An operator with an explicit shape of a class without parameter *)
Definition shaped : operator :=
  {| name := Some "Shaped"; class_name := "Shaped"; signature := [("flags", Default None_)];
     attribute := attributes [("shapein", Tuple [3]); ("flags", Other "Flags()" "Flags()")]; square := false; implicit_in := false; implicit_out := true |}.

Lemma join_concat (sep : string) (l : list string) : join sep l = String.concat sep l.
Proof. induction l as [|x [|y l] IH]; [reflexivity|reflexivity|]. change (x ++ sep ++ join sep (y :: l) = x ++ sep ++ String.concat sep (y :: l)). rewrite IH. reflexivity. Qed.
Lemma mapM_texts (A B : Type) (f : A -> result B) l r : mapM f l = Ok r -> Forall2 (fun a b => f a = Ok b) l r.
Proof.
  revert r. induction l as [|x l IH]; intros r E; cbn [mapM] in E; [injection E as <-; constructor|]. destruct (f x) as [y|e] eqn:X; cbn in E; [|discriminate E]. destruct (mapM f l) as [r'|e] eqn:Y; cbn in E; [|discriminate E].
  injection E as <-. constructor; [exact X|apply IH; reflexivity].
Qed.
