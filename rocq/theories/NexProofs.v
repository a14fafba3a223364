From Coq Require Import String.
From Verif Require Import Base Algebra SeqModel BlockModel BlockSpec BlockProofs DiagModel DiagRulesModel DiagSpec DiagProofs DiagRules DistModel DistSpec DistProofs NexModel NexSpec.
Open Scope list_scope.

(** ** Texts *)
Section Text.
Context {K : Type}.
Notation tok := (token K).
Lemma parse_S f lv (ts : list tok) : parse (S f) lv ts =
      if lv <? 7 then
        match parse f (S lv) ts with Some (e, ts') => chain f lv e ts' | None => None end
      else
        match ts with
        | Op Minus :: ts' => match parse f 7 ts' with Some (e, r) => Some (Un Neg e, r) | None => None end
        | Op Plus :: ts' => match parse f 7 ts' with Some (e, r) => Some (Un Pos e, r) | None => None end
        | Tilde :: ts' => match parse f 7 ts' with Some (e, r) => Some (Un Inv e, r) | None => None end
        | Name s :: LPar :: ts' => match arguments f ts' with Some (l, r) => power f (Call s l) r | None => None end
        | Name s :: ts' => power f (Var s) ts'
        | Num c :: ts' => power f (Lit c) ts'
        | LPar :: ts' => match parse f 0 ts' with Some (e, RPar :: r) => power f e r | _ => None end
        | _ => None
        end.
Proof. reflexivity. Qed.
Lemma chain_S f lv e (ts : list tok) : chain (S f) lv e ts =
      match ts with
      | Op o :: ts' =>
          if level o =? lv then match parse f (S lv) ts' with Some (e', r) => chain f lv (Bin o e e') r | None => None end
          else Some (e, ts)
      | _ => Some (e, ts)
      end.
Proof. reflexivity. Qed.
Lemma power_S f e (ts : list tok) : power (S f) e ts =
      match ts with
      | StarStar :: ts' => match parse f 7 ts' with Some (e', r) => Some (Pow e e', r) | None => None end
      | _ => Some (e, ts)
      end.
Proof. reflexivity. Qed.
Lemma arguments_S f (ts : list tok) : arguments (S f) ts =
      match parse f 0 ts with
      | Some (e, RPar :: r) => Some ([e], r)
      | Some (e, Comma :: r) => match arguments f r with Some (l, r') => Some (e :: l, r') | None => None end
      | _ => None
      end.
Proof. reflexivity. Qed.
Lemma more f : (forall lv (ts : list tok) r, parse f lv ts = Some r -> forall g, f <= g -> parse g lv ts = Some r) /\
  (forall lv e (ts : list tok) r, chain f lv e ts = Some r -> forall g, f <= g -> chain g lv e ts = Some r) /\
  (forall e (ts : list tok) r, power f e ts = Some r -> forall g, f <= g -> power g e ts = Some r) /\
  (forall (ts : list tok) r, arguments f ts = Some r -> forall g, f <= g -> arguments g ts = Some r).
Proof.
  induction f as [|f (P & C & W & A)]; [repeat split; intros; discriminate|].
  assert (P' : forall lv ts r, parse f lv ts = Some r -> forall g, S f <= S g -> parse g lv ts = Some r) by (intros; eapply P; eauto; lia).
  split; [|split; [|split]].
  - intros lv ts r H [|g] L; [lia|]. rewrite ?parse_S, ?chain_S, ?power_S, ?arguments_S in *. destruct (lv <? 7).
    + destruct (parse f (S lv) ts) as [[e ts']|] eqn:E; [|discriminate]. rewrite (P' _ _ _ E g L). eapply C; eauto. lia.
    + destruct ts as [|[s|c|[]| | | | |] ts]; try discriminate.
      * destruct ts as [|[] ts]; try (eapply W; [eassumption|lia]).
        destruct (arguments f ts) as [[l q]|] eqn:E; [|discriminate]. rewrite (A _ _ E g) by lia. eapply W; eauto. lia.
      * eapply W; eauto. lia.
      * destruct (parse f 7 ts) as [[e q]|] eqn:E; [|discriminate]. rewrite (P' _ _ _ E g L). auto.
      * destruct (parse f 7 ts) as [[e q]|] eqn:E; [|discriminate]. rewrite (P' _ _ _ E g L). auto.
      * destruct (parse f 7 ts) as [[e q]|] eqn:E; [|discriminate]. rewrite (P' _ _ _ E g L). auto.
      * destruct (parse f 0 ts) as [[e q]|] eqn:E; [|discriminate]. rewrite (P' _ _ _ E g L). destruct q as [|[] q]; try discriminate. eapply W; eauto. lia.
  - intros lv e ts r H [|g] L; [lia|]. rewrite ?parse_S, ?chain_S, ?power_S, ?arguments_S in *. destruct ts as [|[] ts]; auto. destruct (level o =? lv); auto.
    destruct (parse f (S lv) ts) as [[e' ts']|] eqn:E; [|discriminate]. rewrite (P' _ _ _ E g L). eapply C; eauto. lia.
  - intros e ts r H [|g] L; [lia|]. rewrite ?parse_S, ?chain_S, ?power_S, ?arguments_S in *. destruct ts as [|[] ts]; auto.
    destruct (parse f 7 ts) as [[e' ts']|] eqn:E; [|discriminate]. rewrite (P' _ _ _ E g L). auto.
  - intros ts r H [|g] L; [lia|]. rewrite ?parse_S, ?chain_S, ?power_S, ?arguments_S in *. destruct (parse f 0 ts) as [[e q]|] eqn:E; [|discriminate]. rewrite (P' _ _ _ E g L).
    destruct q as [|[] q]; try discriminate; auto. destruct (arguments f q) as [[l q']|] eqn:E2; [|discriminate]. rewrite (A _ _ E2 g) by lia. auto.
Qed.

(** A closing parenthesis ends any expression. *)
Lemma before_parenthesis w f : (forall lv (ts : list tok) e r, parse f lv ts = Some (e, r) -> parse f lv (ts ++ RPar :: w) = Some (e, r ++ RPar :: w)) /\
  (forall lv e (ts : list tok) e' r, chain f lv e ts = Some (e', r) -> chain f lv e (ts ++ RPar :: w) = Some (e', r ++ RPar :: w)) /\
  (forall e (ts : list tok) e' r, power f e ts = Some (e', r) -> power f e (ts ++ RPar :: w) = Some (e', r ++ RPar :: w)) /\
  (forall (ts : list tok) l r, arguments f ts = Some (l, r) -> arguments f (ts ++ RPar :: w) = Some (l, r ++ RPar :: w)).
Proof.
  induction f as [|f (P & C & W & A)]; [repeat split; intros; discriminate|].
  split; [|split; [|split]].
  - intros lv ts e r H. rewrite ?parse_S, ?chain_S, ?power_S, ?arguments_S in *. destruct (lv <? 7).
    + destruct (parse f (S lv) ts) as [[e1 ts1]|] eqn:E; [|discriminate]. rewrite (P _ _ _ _ E). auto.
    + destruct ts as [|[s|c|[]| | | | |] ts]; try discriminate; cbn [app].
      * destruct ts as [|[] ts]; cbn [app] in *; try (apply W in H; exact H).
        destruct (arguments f ts) as [[l q]|] eqn:E; [|discriminate]. rewrite (A _ _ _ E). auto.
      * auto.
      * destruct (parse f 7 ts) as [[e1 q]|] eqn:E; [|discriminate]. rewrite (P _ _ _ _ E). injection H as <- <-. auto.
      * destruct (parse f 7 ts) as [[e1 q]|] eqn:E; [|discriminate]. rewrite (P _ _ _ _ E). injection H as <- <-. auto.
      * destruct (parse f 7 ts) as [[e1 q]|] eqn:E; [|discriminate]. rewrite (P _ _ _ _ E). injection H as <- <-. auto.
      * destruct (parse f 0 ts) as [[e1 q]|] eqn:E; [|discriminate]. rewrite (P _ _ _ _ E). destruct q as [|[] q]; try discriminate. cbn [app]. auto.
  - intros lv e ts e' r H. rewrite ?parse_S, ?chain_S, ?power_S, ?arguments_S in *. destruct ts as [|[] ts]; cbn [app]; try (injection H as <- <-; reflexivity).
    destruct (level o =? lv); [|injection H as <- <-; reflexivity].
    destruct (parse f (S lv) ts) as [[e1 ts1]|] eqn:E; [|discriminate]. rewrite (P _ _ _ _ E). auto.
  - intros e ts e' r H. rewrite ?parse_S, ?chain_S, ?power_S, ?arguments_S in *. destruct ts as [|[] ts]; cbn [app]; try (injection H as <- <-; reflexivity).
    destruct (parse f 7 ts) as [[e1 ts1]|] eqn:E; [|discriminate]. rewrite (P _ _ _ _ E). injection H as <- <-. auto.
  - intros ts l r H. rewrite ?parse_S, ?chain_S, ?power_S, ?arguments_S in *. destruct (parse f 0 ts) as [[e1 q]|] eqn:E; [|discriminate]. rewrite (P _ _ _ _ E).
    destruct q as [|[] q]; try discriminate; cbn [app].
    + injection H as <- <-. reflexivity.
    + destruct (arguments f q) as [[l1 q1]|] eqn:E1; [|discriminate]. rewrite (A _ _ _ E1). injection H as <- <-. auto.
Qed.

Lemma read_parenthesised (ts w : list tok) e g : read ts = Some e -> 10 * S (length ts) <= g -> parse g 0 (ts ++ RPar :: w) = Some (e, RPar :: w).
Proof.
  unfold read. intros H L. destruct (parse _ 0 ts) as [[e' [|]]|] eqn:E; try discriminate. injection H as ->.
  apply (proj1 (before_parenthesis w _)) in E. eapply (proj1 (more _)); eauto.
Qed.
Lemma times_input_read (ts : list tok) e : read ts = Some e -> read (times_input (K := K) ts) = Some (Bin Times e (Var "input"%string)).
Proof.
  intros H. unfold times_input, read. cbn [length]. rewrite app_length. cbn [length].
  replace (10 * S (S (length ts + 3))) with (20 + (10 * S (length ts) + 20)) by lia.
  set (g := 10 * S (length ts) + 20). cbn [Nat.add]. do 8 (rewrite parse_S; cbn [Nat.ltb Nat.leb]).
  rewrite (read_parenthesised ts _ e) by (auto; unfold g; lia). reflexivity.
Qed.
Lemma updating_read (ts : list tok) e o : read ts = Some e -> read (updating (K := K) (operation_symbol o) ts) = Some (Bin (operation_symbol o) (Var "output"%string) e).
Proof.
  intros H. unfold updating, read. cbn [length]. rewrite app_length. cbn [length].
  replace (10 * S (S (S (S (length ts + 1))))) with (20 + (10 * S (length ts) + 20)) by lia.
  set (g := 10 * S (length ts) + 20). cbn [Nat.add].
  assert (Q : forall n, parse (9 + n + g) 7 (LPar :: ts ++ [RPar]) = Some (e, [])).
  { intros n. cbn [Nat.add]. rewrite parse_S. cbn [Nat.ltb Nat.leb]. rewrite (read_parenthesised ts _ e) by (auto; unfold g; lia). reflexivity. }
  assert (Q6 : forall n, parse (10 + n + g) 6 (LPar :: ts ++ [RPar]) = Some (e, [])).
  { intros n. cbn [Nat.add]. rewrite parse_S. cbn [Nat.ltb Nat.leb]. change (S (S (S (S (S (S (S (S (S (n + g)))))))))) with (9 + n + g). rewrite Q. reflexivity. }
  do 8 (rewrite parse_S; cbn [Nat.ltb Nat.leb]). rewrite power_S.
  destruct o; cbn [operation_symbol]; repeat (rewrite chain_S; cbn [Nat.eqb level]);
  first [change (parse _ 7 _) with (parse (9 + 3 + g) 7 (LPar :: ts ++ [RPar])); rewrite Q
        |change (parse _ 6 _) with (parse (10 + 3 + g) 6 (LPar :: ts ++ [RPar])); rewrite Q6]; reflexivity.
Qed.
End Text.

(** ** Values *)
Section Expr.
Context {K : Type} (P : expr K -> Prop) (HV : forall s, P (Var s)) (HL : forall c, P (Lit c)) (HB : forall o a b, P a -> P b -> P (Bin o a b))
  (HP : forall a b, P a -> P b -> P (Pow a b)) (HU : forall u a, P a -> P (Un u a)) (HC : forall f l, Forall P l -> P (Call f l)).
Fixpoint expr_ind' (e : expr K) : P e :=
  match e with
  | Var s => HV s
  | Lit c => HL c
  | Bin o a b => HB o a b (expr_ind' a) (expr_ind' b)
  | Pow a b => HP a b (expr_ind' a) (expr_ind' b)
  | Un u a => HU u a (expr_ind' a)
  | Call f l => HC f l ((fix go l := match l return Forall P l with [] => Forall_nil P | e :: l' => Forall_cons e (expr_ind' e) (go l') end) l)
  end.
End Expr.

Section Values.
Context {K : dring} (ar : arith K).
Add Ring KringNex : (rth K).
Lemma value_ext (e : expr K) env env' : (forall s, In s (names e) -> env s = env' s) -> value ar env e = value ar env' e.
Proof.
  induction e using expr_ind'; cbn [names value]; intros Q; auto.
  - apply Q. cbn. auto.
  - rewrite IHe1, IHe2; auto; intros; apply Q, in_or_app; auto.
  - rewrite IHe1, IHe2; auto; intros; apply Q, in_or_app; auto.
  - rewrite IHe; auto.
  - destruct (a_fun ar f) as [g|]; auto. f_equal. apply map_ext_in. intros a Ha.
    rewrite Forall_forall in H. apply (H a Ha). intros s Hs. apply Q. apply in_flat_map. eauto.
Qed.

Lemma find_binds {T} (d : list (string * T)) s o : binds d s o -> find_name s d = Some o.
Proof.
  intros (d1 & d2 & -> & N). induction d1 as [|[s' o'] d1 IH]; cbn in *.
  - rewrite String.eqb_refl. reflexivity.
  - destruct (String.eqb_spec s s') as [->|]; [tauto|]. apply IH. tauto.
Qed.
Lemma find_set (d : dict K) s o s' : find_name s' (set_name d s o) = if String.eqb s' s then Some o else find_name s' d.
Proof.
  unfold set_name. cbn [find_name]. destruct (String.eqb_spec s' s) as [->|N]; auto.
  induction d as [|[t v] d IH]; cbn [filter find_name fst]; auto. destruct (String.eqb_spec s t) as [->|M]; cbn [negb].
  - destruct (String.eqb_spec s' t); [congruence|]. exact IH.
  - cbn [find_name]. destruct (String.eqb s' t); auto.
Qed.

Lemma arguments_found (locals globals : dict K) (A : string -> array K) l : (forall s, In s l -> argument locals globals s = Ok (s, A s)) ->
  rmap (argument locals globals) l = Ok (map (fun s => (s, A s)) l).
Proof.
  induction l as [|s l IH]; intros H; cbn [rmap map]; auto. rewrite (H s) by (cbn; auto). cbn [rbind]. rewrite IH by (intros; apply H; cbn; auto). reflexivity.
Qed.
Lemma arg_found (A : string -> array K) l s : In s l -> arg (map (fun s => (s, A s)) l) s = A s.
Proof.
  unfold arg. induction l as [|t l IH]; cbn [In map find_name]; [tauto|]. intros H. destruct (String.eqb_spec s t) as [->|N]; auto.
  apply IH. destruct H; congruence.
Qed.
Lemma compiled_ok (locals globals : dict K) text e (A : string -> array K) : read text = Some e ->
  (forall f, In f (functions e) -> a_fun ar f <> None) -> (forall s, In s (names e) -> argument locals globals s = Ok (s, A s)) ->
  compiled ar locals globals text = Ok (e, map (fun s => (s, A s)) (names e)).
Proof.
  intros R F H. unfold compiled. rewrite R. rewrite (proj2 (forallb_forall _ _)).
  - rewrite (arguments_found _ _ A) by auto. reflexivity.
  - intros f Hf. specialize (F f Hf). destruct (a_fun ar f); congruence.
Qed.
Lemma evaluate_out_ok (locals globals : dict K) text e (A : string -> array K) out : read text = Some e ->
  (forall f, In f (functions e) -> a_fun ar f <> None) -> (forall s, In s (names e) -> argument locals globals s = Ok (s, A s)) ->
  (forall s, In s (names e) -> stretches (rev (ashape (A s))) (rev out)) ->
  exists y, evaluate_out ar locals globals text out = Ok y /\ ashape y = out /\
    forall idx, aval y idx = value ar (fun s => stretched (A s) idx) e.
Proof.
  intros R F H S. unfold evaluate_out. rewrite (compiled_ok _ _ _ _ _ R F H). cbn [rbind snd fst].
  assert (Q : exists l, rmap (fun sa : string * array K => assign (snd sa) out) (map (fun s => (s, A s)) (names e)) = Ok l).
  { clear - S. induction (names e) as [|s l IH]; cbn [map rmap]; eauto. cbn [snd]. rewrite assign_ok by (apply S; cbn; auto). cbn [rbind].
    destruct IH as [l' ->]; [intros; apply S; cbn; auto|]. cbn. eauto. }
  destruct Q as [l ->]. cbn [rbind]. eexists. split; [reflexivity|]. split; [reflexivity|]. intros idx. cbn [aval].
  apply value_ext. intros s Hs. rewrite arg_found by auto. reflexivity.
Qed.
Lemma evaluate_out_fits (locals globals : dict K) text e (A : string -> array K) out y s : read text = Some e ->
  (forall s, In s (names e) -> argument locals globals s = Ok (s, A s)) -> In s (names e) ->
  evaluate_out ar locals globals text out = Ok y -> stretches (rev (ashape (A s))) (rev out).
Proof.
  intros R H Hs E. unfold evaluate_out, compiled in E. rewrite R in E. destruct (forallb _ _); [|discriminate].
  rewrite (arguments_found _ _ A) in E by auto. cbn [rbind snd fst] in E.
  destruct (rmap _ (map _ _)) as [l|] eqn:Q; [|discriminate]. clear - Q Hs. revert l Q Hs. induction (names e) as [|t ns IH]; cbn [map rmap In snd]; [tauto|].
  intros l Q Hs. destruct (assign (A t) out) eqn:Q1; [|discriminate]. cbn [rbind] in Q. destruct (rmap _ _) as [l'|] eqn:Q2; [|discriminate].
  destruct Hs as [->|Hs]; eauto. eapply assign_fits; eauto.
Qed.

(** ** DiagonalNumexprOperator *)
Lemma number_found (d : dict K) s c : number_of d s c -> exists a, find_name s d = Some (Array a) /\ ashape a = [] /\ aval a [] = c.
Proof. intros (a & B & S). exists a. split; auto. apply find_binds; auto. Qed.
Lemma stretched_scalar (a : array K) idx : ashape a = [] -> stretched a idx = aval a [].
Proof. intros E. unfold stretched. rewrite E. reflexivity. Qed.

(** the arrays that the names stand for *)
Definition resolve (locals globals : dict K) (s : string) : array K :=
  match argument locals globals s with Ok (_, a) => a | Raise _ => scalar r0 end.
Lemma resolve_ok locals globals s a : argument locals globals s = Ok (s, a) -> resolve locals globals s = a.
Proof. unfold resolve. intros ->. reflexivity. Qed.

Section Diag.
Context (h : heap K) (data : array K) (ex : list (token K)) (gd : option nat) (var : string) (bo : option bcast) (e : expr K) (env : string -> K).
Let op := nexpr h data ex gd var bo.
Let b0 := match bo with Some b => b | None => default_broadcast data end.
Hypothesis (HR : read ex = Some e) (HC : closed ar (given h gd) diag_names [var] env e) (HN : ~ In var diag_names).

Lemma b_scalarized : n_b op = scalarized (ashape data) b0.
Proof. reflexivity. Qed.

(** an argument of the expression, with the input *)
Lemma nex_argument x out s : In s (names (Bin Times e (Var "input"%string))) ->
  argument [("self", Other); ("input", Array x); ("output", Array out)]%string (n_copy op) s =
  Ok (s, if String.eqb s "input"%string then x else if String.eqb s var then match b0 with Rightward => transpose data | _ => data end
         else resolve [] (given h gd) s) /\
  (s <> "input"%string -> s <> var -> ashape (resolve [] (given h gd) s) = [] /\ aval (resolve [] (given h gd) s) [] = env s).
Proof.
  intros Hs. cbn [names] in Hs. apply in_app_or in Hs. unfold argument at 1. cbn [find_name].
  destruct (String.eqb_spec s "self") as [->|N1].
  { exfalso. destruct Hs as [Hs|[Hs|[]]]; [|discriminate]. destruct (string_dec "self" var) as [<-|N]; [apply HN; cbn; auto|].
    destruct (proj2 HC "self"%string Hs) as [X _]; [cbn; intros [X|[]]; congruence|]. apply X. cbn. auto. }
  destruct (String.eqb_spec s "input") as [->|N2]; [split; [reflexivity|congruence]|].
  assert (He : In s (names e)) by (destruct Hs as [Hs|[Hs|[]]]; congruence).
  destruct (String.eqb_spec s "output") as [->|N3].
  { exfalso. destruct (string_dec "output" var) as [<-|N]; [apply HN; cbn; auto|].
    destruct (proj2 HC "output"%string He) as [X _]; [cbn; intros [X|[]]; congruence|]. apply X. cbn. auto. }
  cbn [op nexpr n_copy]. rewrite find_set. fold b0. destruct (String.eqb_spec s var) as [->|N4]; [split; [reflexivity|congruence]|].
  destruct (proj2 HC s He) as [_ X]; [cbn; intros [X|[]]; congruence|]. destruct (number_found _ _ _ X) as (a & F & S & V).
  fold (given h gd). rewrite F. assert (Q : resolve [] (given h gd) s = a) by (apply resolve_ok; unfold argument; cbn [find_name]; rewrite F; reflexivity).
  rewrite Q. auto.
Qed.

Lemma nex_functions f : In f (functions (Bin Times e (Var "input"%string))) -> a_fun ar f <> None.
Proof. cbn [functions]. rewrite app_nil_r. apply HC. Qed.

Lemma nex_direct_ok x out : fits (n_b op) (ashape data) (ashape x) ->
  exists y, nex_direct ar op x out = Ok y /\ elementwise (fun idx v => rmul (meaning ar env var e (coefficient (n_b op) data idx)) v) x y.
Proof.
  intros F. assert (RT := times_input_read _ _ HR).
  assert (AS : forall x' idx, inside (ashape x') idx -> (forall s, stretched (match b0 with Rightward => transpose data | _ => data end) idx = s -> True) ->
    value ar (fun s => stretched (if String.eqb s "input"%string then x' else if String.eqb s var then match b0 with Rightward => transpose data | _ => data end
         else resolve [] (given h gd) s) idx) (Bin Times e (Var "input"%string)) =
    rmul (meaning ar env var e (stretched (match b0 with Rightward => transpose data | _ => data end) idx)) (aval x' idx)).
  { intros x' idx Hi _. cbn [value]. rewrite a_times. rewrite String.eqb_refl. rewrite stretched_same by auto. f_equal. unfold meaning. apply value_ext.
    intros s Hs. unfold bind. destruct (nex_argument x' out s) as [_ B]; [cbn [names]; apply in_or_app; auto|].
    destruct (String.eqb_spec s "input") as [->|N].
    - exfalso. destruct (string_dec "input" var) as [<-|N]; [apply HN; cbn; auto|].
      destruct (proj2 HC "input"%string Hs) as [X _]; [cbn; intros [X|[]]; congruence|]. apply X. cbn. auto.
    - destruct (String.eqb_spec s var) as [->|N']; auto. destruct (B N N') as [B1 B2]. rewrite stretched_scalar; auto. }
  assert (ST : forall x' out', stretches (rev (ashape (match b0 with Rightward => transpose data | _ => data end))) (rev (ashape x')) ->
    exists y, evaluate_out ar [("self", Other); ("input", Array x'); ("output", Array out')]%string (n_copy op) (times_input (n_expr op)) (ashape x') = Ok y /\
      ashape y = ashape x' /\ forall idx, inside (ashape x') idx -> aval y idx = rmul (meaning ar env var e (stretched (match b0 with Rightward => transpose data | _ => data end) idx)) (aval x' idx)).
  { intros x' out' HS. destruct (evaluate_out_ok [("self", Other); ("input", Array x'); ("output", Array out')]%string (n_copy op) (times_input ex) _
      (fun s => if String.eqb s "input"%string then x' else if String.eqb s var then match b0 with Rightward => transpose data | _ => data end
         else resolve [] (given h gd) s) (ashape x') RT nex_functions) as (y & E & S & V).
    - intros s Hs. apply nex_argument; auto.
    - intros s Hs. destruct (nex_argument x' out' s Hs) as [_ B]. destruct (String.eqb_spec s "input") as [->|N]; [apply stretches_refl|].
      destruct (String.eqb_spec s var) as [->|N']; auto. destruct (B N N') as [B1 _]. rewrite B1. exact I.
    - exists y. split; [exact E|]. split; auto. intros idx Hi. rewrite V. apply AS; auto. }
  assert (NB := b_scalarized). unfold nex_direct.
  assert (CASE : n_b op = Rightward /\ b0 = Rightward \/ n_b op <> Rightward /\ (b0 <> Rightward \/ ashape data = [])).
  { rewrite NB. unfold scalarized. destruct (ashape data), b0; auto; right; split; auto; try discriminate; left; discriminate. }
  destruct CASE as [[C1 C2]|[C1 C2]].
  - rewrite C1 in *. rewrite C2 in *. destruct (ST (transpose x) (transpose out)) as (y & E & S & V).
    { cbn [ashape transpose]. rewrite !rev_involutive. exact F. }
    cbn [ashape transpose] in E. rewrite E. cbn [rbind]. eexists. split; [reflexivity|].
    split; [cbn [ashape transpose]; rewrite S; apply rev_involutive|]. intros idx Hi. cbn [aval transpose]. rewrite V by (apply inside_rev; auto).
    cbn [aval transpose]. rewrite rev_involutive. f_equal. f_equal. unfold stretched, coefficient. cbn [ashape aval transpose facing].
    rewrite !rev_involutive, clip_project. reflexivity.
  - assert (HT : ashape (match b0 with Rightward => transpose data | _ => data end) = ashape data /\
        forall idx, stretched (match b0 with Rightward => transpose data | _ => data end) idx = stretched data idx).
    { destruct b0; auto. destruct C2 as [C2|C2]; [congruence|]. cbn [ashape transpose]. rewrite C2. split; auto. intros idx.
      unfold stretched. cbn [ashape aval transpose]. rewrite C2. reflexivity. }
    destruct HT as [HT1 HT2]. destruct (ST x out) as (y & E & S & V).
    { rewrite HT1. eapply fits_left; eauto. }
    exists y. split; [destruct (n_b op); auto; congruence|]. split; auto. intros idx Hi. rewrite V, HT2 by auto. f_equal. f_equal. apply left_coefficient; auto.
Qed.

Lemma nex_apply_ok x out : fits (n_b op) (ashape data) (ashape x) ->
  exists y, nex_apply ar op x out = Ok y /\ elementwise (fun idx v => rmul (meaning ar env var e (coefficient (n_b op) data idx)) v) x y.
Proof.
  intros F. destruct (nex_direct_ok x out F) as (y & E & Y). exists y. split; auto. unfold nex_apply.
  replace (n_shape op) with (match b0 with Disabled => Some (ashape data) | _ => None end) by reflexivity.
  rewrite b_scalarized in F. destruct b0; auto. replace (scalarized (ashape data) Disabled) with Disabled in F by (destruct (ashape data); reflexivity).
  cbn [fits] in F. rewrite F, shape_eqb_refl. auto.
Qed.
Lemma nex_apply_fits x out y : In var (names e) -> nex_apply ar op x out = Ok y -> fits (n_b op) (ashape data) (ashape x).
Proof.
  intros Hv E. unfold nex_apply in E. assert (NB := b_scalarized).
  replace (n_shape op) with (match b0 with Disabled => Some (ashape data) | _ => None end) in E by reflexivity.
  assert (VI : var <> "input"%string) by (intros ->; apply HN; cbn; auto).
  assert (VE : String.eqb var "input" = false) by (apply String.eqb_neq; auto).
  destruct b0 eqn:B0.
  1,2,4: unfold nex_direct in E; fold op in E.
  - assert (E' : evaluate_out ar [("self", Other); ("input", Array x); ("output", Array out)]%string (n_copy op) (times_input (n_expr op)) (ashape x) = Ok y).
    { rewrite NB in E. unfold scalarized in E. destruct (ashape data); exact E. }
    apply (evaluate_out_fits _ _ _ (Bin Times e (Var "input"%string)) (fun s => if String.eqb s "input"%string then x else if String.eqb s var then match b0 with Rightward => transpose data | _ => data end
         else resolve [] (given h gd) s) _ _ var) in E'.
    + rewrite VE, String.eqb_refl, B0 in E'. rewrite NB. unfold scalarized. destruct (ashape data); exact E'.
    + apply times_input_read; auto.
    + intros s Hs. apply nex_argument; auto.
    + cbn [names]. apply in_or_app; auto.
  - rewrite NB in *. unfold scalarized in *. destruct (ashape data) as [|n sh] eqn:D; [exact I|]. rewrite <- D in *.
    destruct (evaluate_out _ _ _ _ _) as [r|] eqn:E'; [|discriminate].
    change (rev (ashape x)) with (ashape (transpose x)) in E'.
    apply (evaluate_out_fits _ _ _ (Bin Times e (Var "input"%string)) (fun s => if String.eqb s "input"%string then transpose x else if String.eqb s var then match b0 with Rightward => transpose data | _ => data end
         else resolve [] (given h gd) s) _ _ var) in E'.
    + rewrite VE, String.eqb_refl, B0 in E'. cbn [ashape transpose] in E'. rewrite !rev_involutive in E'. exact E'.
    + apply times_input_read; auto.
    + intros s Hs. apply nex_argument; auto.
    + cbn [names]. apply in_or_app; auto.
  - assert (E' : evaluate_out ar [("self", Other); ("input", Array x); ("output", Array out)]%string (n_copy op) (times_input (n_expr op)) (ashape x) = Ok y).
    { rewrite NB in E. unfold scalarized in E. destruct (ashape data); exact E. }
    apply (evaluate_out_fits _ _ _ (Bin Times e (Var "input"%string)) (fun s => if String.eqb s "input"%string then x else if String.eqb s var then match b0 with Rightward => transpose data | _ => data end
         else resolve [] (given h gd) s) _ _ var) in E'.
    + rewrite VE, String.eqb_refl, B0 in E'. rewrite NB. unfold scalarized. destruct (ashape data); exact E'.
    + apply times_input_read; auto.
    + intros s Hs. apply nex_argument; auto.
    + cbn [names]. apply in_or_app; auto.
  - rewrite NB. destruct (shape_eqb (ashape data) (ashape x)) eqn:Q; [|discriminate]. apply shape_eqb_ok in Q.
    unfold scalarized. destruct (ashape data); exact Q.
Qed.

Lemma common_shape_ok t l : (forall s, In s l -> s = [] \/ s = t) -> (common_shape l = Ok t \/ common_shape l = Ok []) /\ (In t l -> common_shape l = Ok t).
Proof.
  induction l as [|s l IH]; cbn [common_shape In]; [intros _; split; [auto|tauto]|]. intros H. destruct IH as [I1 I2]; [auto|].
  assert (X : bc t [] = Ok t) by (destruct t; reflexivity).
  destruct (H s (or_introl eq_refl)) as [->| ->].
  - split.
    + destruct I1 as [->| ->]; cbn; auto.
    + intros [<-|I]; [|rewrite (I2 I); reflexivity]. destruct I1 as [->| ->]; reflexivity.
  - split; [|intros _]; destruct I1 as [->| ->]; cbn [rbind]; rewrite ?bc_refl, ?X; auto.
Qed.

(** get_data, at another time *)
Lemma nex_data_ok frame h' : closed ar (given h' gd) [] [var] env e -> In var (names e) ->
  exists g, nex_data ar frame h' op = Ok g /\ ashape g = ashape data /\
    forall idx, inside (ashape data) idx -> aval g idx = meaning ar env var e (aval data idx).
Proof.
  intros HC' Hv. unfold nex_data, evaluate. set (globals := match n_globals op with None => frame | Some r => h' r end).
  set (A := fun s => if String.eqb s var then data else resolve [] globals s).
  assert (HA : forall s, In s (names e) -> argument [(n_var op, Array (n_data op))] globals s = Ok (s, A s) /\
     (s <> var -> ashape (A s) = [] /\ aval (A s) [] = env s)).
  { intros s Hs. unfold argument, A. change (n_var op) with var. change (n_data op) with data. cbn [find_name].
    destruct (String.eqb_spec s var) as [->|N]; [split; [reflexivity|congruence]|].
    destruct (proj2 HC' s Hs) as [_ X]; [cbn; intros [X|[]]; congruence|]. destruct (number_found _ _ _ X) as (a & F & S & V).
    assert (G : globals = given h' gd).
    { unfold globals. change (n_globals op) with gd. unfold given in *. destruct gd; auto. cbn in F. discriminate. }
    rewrite G, F. assert (Q : resolve [] (given h' gd) s = a) by (apply resolve_ok; unfold argument; cbn [find_name]; rewrite F; reflexivity).
    rewrite Q. auto. }
  change (n_expr op) with ex. rewrite (compiled_ok _ _ _ e A HR (proj1 HC)) by (intros; apply HA; auto). cbn [rbind snd fst].
  rewrite map_map. cbn [snd].
  destruct (common_shape_ok (rev (ashape data)) (map (fun s => rev (ashape (A s))) (names e))) as [_ CS].
  { intros s Hs. apply in_map_iff in Hs. destruct Hs as (t & <- & Ht). destruct (string_dec t var) as [->|N].
    - right. unfold A. rewrite String.eqb_refl. reflexivity.
    - left. destruct (proj2 (HA t Ht) N) as [-> _]. reflexivity. }
  rewrite CS by (apply in_map_iff; exists var; split; auto; unfold A; rewrite String.eqb_refl; reflexivity). cbn [rbind].
  eexists. split; [reflexivity|]. cbn [ashape aval]. split; [apply rev_involutive|]. intros idx Hi. unfold meaning. apply value_ext. intros s Hs.
  rewrite arg_found by auto. unfold bind. destruct (String.eqb_spec s var) as [->|N].
  - unfold A. rewrite String.eqb_refl. apply stretched_same; auto.
  - destruct (proj2 (HA s Hs) N) as [S V]. rewrite stretched_scalar; auto.
Qed.
Lemma nex_coefficient (g : array K) b s idx : ashape g = ashape data -> (forall idx, inside (ashape data) idx -> aval g idx = meaning ar env var e (aval data idx)) ->
  fits b (ashape data) s -> inside s idx -> coefficient b g idx = meaning ar env var e (coefficient b data idx).
Proof. intros S V F I. unfold coefficient. rewrite S. apply V. eapply facing_inside; eauto. Qed.

Lemma nex_rule_ok f fb (first : bool) frame h' op2 x2 r (x xx y2 : array K) : closed ar (given h' gd) [] [var] env e -> In var (names e) ->
  proper (n_b op) (ashape data) -> fits (n_b op) (ashape data) (ashape x) ->
  made op2 -> get_data op2 = Some x2 -> ashape xx = ashape x -> apply op2 xx = Ok y2 -> nex_rule ar f fb first frame h' op x2 = Some r ->
  exists op' c2, r = Ok op' /\ made op' /\ elementwise (fun idx v => rmul (c2 idx) v) xx y2 /\
  forall x' : array K, ashape x' = ashape x -> exists z, apply op' x' = Ok z /\
    elementwise (fun idx v => rmul (if first then f (meaning ar env var e (coefficient (n_b op) data idx)) (c2 idx) else f (c2 idx) (meaning ar env var e (coefficient (n_b op) data idx))) v) x' z.
Proof.
  intros HC' Hv P F M G ES E2 R. destruct x2 as [g2 b2]. apply made_wf in M.
  destruct (applied _ _ _ _ _ M G E2) as (P2 & F2 & Y2). rewrite ES in F2. unfold nex_rule in R. cbn [snd] in R.
  destruct (common (n_b op) b2) as [b|] eqn:HB; [|discriminate].
  destruct (nex_data_ok frame h' HC' Hv) as (g & EG & SG & VG). rewrite EG in R.
  assert (NC : forall idx, inside (ashape x) idx -> coefficient (n_b op) g idx = meaning ar env var e (coefficient (n_b op) data idx))
    by (intros; eapply nex_coefficient; eauto).
  assert (Q : exists d, (if first then rule_broadcast f fb (Nums g, n_b op) (g2, b2) else rule_broadcast f fb (g2, b2) (Nums g, n_b op)) = Some (Ok (d, b)) /\
     proper b (gshape d) /\ fits b (gshape d) (ashape x) /\
     forall idx, inside (ashape x) idx -> coefficient b (nums d) idx =
       if first then f (coefficient (n_b op) g idx) (coefficient b2 (nums g2) idx) else f (coefficient b2 (nums g2) idx) (coefficient (n_b op) g idx)).
  { destruct first.
    - apply (gcombines f fb (Nums g) g2 (n_b op) b2 b (ashape x)); auto; cbn [gshape]; rewrite ?SG; auto. right. intros; discriminate.
    - apply (gcombines f fb g2 (Nums g) b2 (n_b op) b (ashape x)); auto; cbn [gshape]; rewrite ?SG; auto; [right; intros; discriminate|].
      unfold common in *. rewrite (orb_comm (is_left b2)), (orb_comm (is_right b2)), (orb_comm (is_disabled b2)). exact HB. }
  destruct Q as (d & Ed & Pd & Fd & Cd). rewrite Ed in R. cbn in R. injection R as <-.
  exists (diagonal (nums d) b), (coefficient b2 (nums g2)). split; [reflexivity|]. split; [apply made_diagonal; rewrite nums_shape; auto|]. split; [auto|].
  intros x' Ex. destruct (apply_diagonal (nums d) b x') as (z & Ez & Z); [rewrite nums_shape, Ex; auto|]. exists z. split; [auto|].
  eapply elementwise_ext; [exact Z|]. intros idx Hi. cbv beta. rewrite Ex in Hi. rewrite Cd, NC by auto. reflexivity.
Qed.

Lemma nex_same x out y : fits (n_b op) (ashape data) (ashape x) -> nex_apply ar op x out = Ok y ->
  elementwise (fun idx v => rmul (meaning ar env var e (coefficient (n_b op) data idx)) v) x y.
Proof. intros F E. destruct (nex_apply_ok x out F) as (y' & E' & Y). congruence. Qed.

Lemma nex_sum_ok frame h' first op2 x2 r (x out y1 y2 : array K) : closed ar (given h' gd) [] [var] env e -> In var (names e) ->
  proper (n_b op) (ashape data) -> made op2 -> get_data op2 = Some x2 ->
  nex_apply ar op x out = Ok y1 -> apply op2 x = Ok y2 -> nex_sum ar first frame h' op x2 = Some r ->
  exists op' z, r = Ok op' /\ made op' /\ apply op' x = Ok z /\ combines radd y1 y2 z.
Proof.
  intros HC' Hv PR M G E1 E2 R. assert (F := nex_apply_fits x out y1 Hv E1). destruct (nex_same x out y1 F E1) as [Y1 Y2].
  destruct (nex_rule_ok radd orb first frame h' op2 x2 r x x y2 HC' Hv PR F M G eq_refl E2 R) as (op' & c2 & -> & Mo & [Z1 Z2] & H).
  destruct (H x eq_refl) as (z & Ez & [Q1 Q2]). exists op', z. split; [reflexivity|]. split; [auto|]. split; [auto|].
  split; [congruence|]. split; [congruence|]. intros idx Hi. rewrite Y1 in Hi. rewrite Q2, Y2, Z2 by auto. destruct first; ring.
Qed.
Lemma nex_left_ok frame h' op2 x2 r (x out y z : array K) : closed ar (given h' gd) [] [var] env e -> In var (names e) ->
  proper (n_b op) (ashape data) -> made op2 -> get_data op2 = Some x2 ->
  apply op2 x = Ok y -> nex_apply ar op y out = Ok z -> nex_compose ar true frame h' op x2 = Some r ->
  exists op' z', r = Ok op' /\ made op' /\ apply op' x = Ok z' /\ aeq z' z.
Proof.
  intros HC' Hv PR M G E2 E1 R. assert (F := nex_apply_fits y out z Hv E1). destruct (nex_same y out z F E1) as [Y1 Y2].
  assert (SY := apply_shape _ _ _ (made_wf _ M) E2).
  destruct (nex_rule_ok rmul andb true frame h' op2 x2 r y x y HC' Hv PR F M G (eq_sym SY) E2 R) as (op' & c2 & -> & Mo & [Z1 Z2] & H).
  destruct (H x (eq_sym SY)) as (z' & Ez & [Q1 Q2]). exists op', z'. split; [reflexivity|]. split; [auto|]. split; [auto|].
  split; [congruence|]. intros idx Hi. rewrite Q1 in Hi. rewrite Q2, Y2, Z2 by congruence. ring.
Qed.
Lemma nex_right_ok frame h' op2 x2 r (x out y z : array K) : closed ar (given h' gd) [] [var] env e -> In var (names e) ->
  proper (n_b op) (ashape data) -> made op2 -> get_data op2 = Some x2 ->
  nex_apply ar op x out = Ok y -> apply op2 y = Ok z -> nex_compose ar false frame h' op x2 = Some r ->
  exists op' z', r = Ok op' /\ made op' /\ apply op' x = Ok z' /\ aeq z' z.
Proof.
  intros HC' Hv PR M G E1 E2 R. assert (F := nex_apply_fits x out y Hv E1). destruct (nex_same x out y F E1) as [Y1 Y2].
  destruct (nex_rule_ok rmul andb false frame h' op2 x2 r x y z HC' Hv PR F M G Y1 E2 R) as (op' & c2 & -> & Mo & [Z1 Z2] & H).
  destruct (H x eq_refl) as (z' & Ez & [Q1 Q2]). exists op', z'. split; [reflexivity|]. split; [auto|]. split; [auto|].
  split; [congruence|]. intros idx Hi. rewrite Q1 in Hi. rewrite Q2, Z2, Y2 by congruence. ring.
Qed.
End Diag.

Lemma split_nex_ok h data ex gd var bo e env h' shape part ax p a ops (x out y : array K) :
  let op := nexpr h data ex gd var bo in
  read ex = Some e -> closed ar (given h gd) diag_names [var] env e -> closed ar (given h' gd) diag_names [var] env e -> ~ In var diag_names ->
  proper (n_b op) (ashape data) -> fits (n_b op) (ashape data) (ashape x) ->
  partitioned ax p (ashape x) a -> sizes part p -> ready shape (n_b op) (ashape data) (ashape x) ax a -> replicable (n_shape op) shape (n_b op) ->
  split_nex h' op (length p) shape (Some part) (Some ax) = Ok (Some ops) -> nex_apply ar op x out = Ok y ->
  length ops = length p /\
  forall k dflt out', k < length p -> exists y', nex_apply ar (nth k ops dflt) (piece ax a p k x) out' = Ok y' /\ aeq y' (piece ax a p k y).
Proof.
  intros op HR HC HC' HN PR F P S R RP E Y.
  assert (EW := nex_same h data ex gd var bo e env HR HC HN x out y F Y). fold op in EW.
  unfold split_nex in E. destruct (rule_block _ _ _ _ _) as [r|] eqn:RB; [|discriminate].
  assert (H := rule_block_ok (n_b op) data shape part (ashape x) ax p a r PR F P S R RB).
  destruct (parts_of_ok (fun k t => forall out', exists y', nex_apply ar t (piece ax a p k x) out' = Ok y' /\ aeq y' (piece ax a p k y)) _ _ _ r _ _ _ _ _ _ _ E eq_refl H) as [L G].
  - intros -> k Hk [PF PC] out'. destruct (same_cases _ _ _ _ _ RB) as [ND NS].
    destruct (nex_apply_ok h data ex gd var bo e env HR HC HN (piece ax a p k x) out') as (y' & E' & Y'); [rewrite piece_shape'; exact PF|].
    exists y'. split; auto. apply (elementwise_piece _ _ ax a p k x y _ P Hk EW Y'). intros idx I. fold op. rewrite (PC idx I). reflexivity.
  - intros l k d t _ Hk [PF PC] [= <-] out'. 
    assert (NB : n_b (nexpr h' d ex gd var (Some (n_b op))) = scalarized (ashape d) (n_b op)) by reflexivity.
    destruct (nex_apply_ok h' d ex gd var (Some (n_b op)) e env HR HC' HN (piece ax a p k x) out') as (y' & E' & Y').
    { rewrite NB, piece_shape'. apply scalarized_fits. exact PF. }
    exists y'. split; auto. apply (elementwise_piece _ _ ax a p k x y _ P Hk EW Y'). intros idx I. rewrite NB, scalarized_coefficient. rewrite (PC idx I). reflexivity.
  - split; auto.
Qed.

(** ** NumexprOperator *)
Lemma numexpr_ok frame h ex gd e env (x out : array K) o : read ex = Some e -> closed ar (given h gd) numexpr_names ["input"%string] env e -> ashape out = ashape x ->
  exists y, numexpr_direct ar frame h ex gd x out o = Ok y /\ ashape y = ashape x /\
    forall idx, inside (ashape x) idx -> aval y idx =
      match o with
      | None => meaning ar env "input" e (aval x idx)
      | Some o => a_bin ar (operation_symbol o) (aval out idx) (meaning ar env "input" e (aval x idx))
      end.
Proof.
  intros HR HC HS. unfold numexpr_direct. set (globals := match gd with None => frame | Some r => h r end).
  set (A := fun s => if String.eqb s "input"%string then x else resolve [] globals s).
  set (locals := [("self", Other); ("input", Array x); ("output", Array out); ("operation", Other); ("expr", Other)]%string).
  assert (HA : forall s, In s (names e) -> (argument locals globals s = Ok (s, A s) /\ argument (("op"%string, Other) :: locals) globals s = Ok (s, A s)) /\
      (s <> "input"%string -> (ashape (A s) = [] /\ aval (A s) [] = env s) /\ s <> "output"%string)).
  { intros s Hs. unfold argument, A. cbn [find_name locals].
    destruct (String.eqb_spec s "input") as [->|N]; [split; [split; reflexivity|congruence]|].
    destruct (proj2 HC s Hs) as [NR X]; [cbn; intros [X|[]]; congruence|]. destruct (number_found _ _ _ X) as (a & F & SS & V).
    assert (G : globals = given h gd). { unfold globals, given in *. destruct gd; auto. cbn in F. discriminate. }
    unfold numexpr_names in NR. cbn [In] in NR.
    repeat match goal with |- context [String.eqb s ?t] => destruct (String.eqb_spec s t) as [->|?]; [tauto|] end.
    rewrite G, F. assert (Q : resolve [] (given h gd) s = a) by (apply resolve_ok; unfold argument; cbn [find_name]; rewrite F; reflexivity).
    rewrite Q. auto. }
  assert (VA : forall idx, inside (ashape x) idx -> value ar (fun s => stretched (A s) idx) e = meaning ar env "input" e (aval x idx)).
  { intros idx Hi. unfold meaning. apply value_ext. intros s Hs. unfold bind. destruct (HA s Hs) as [_ B]. destruct (String.eqb_spec s "input") as [->|N].
    - unfold A. rewrite String.eqb_refl. apply stretched_same; auto.
    - destruct (B N) as [[S V] _]. rewrite stretched_scalar; auto. }
  assert (SA : forall s, In s (names e) -> stretches (rev (ashape (A s))) (rev (ashape out))).
  { intros s Hs. destruct (HA s Hs) as [_ B]. destruct (string_dec s "input") as [->|N].
    - unfold A. rewrite String.eqb_refl, HS. apply stretches_refl.
    - destruct (B N) as [[-> _] _]. exact I. }
  destruct o as [o|].
  - destruct (evaluate_out_ok (("op"%string, Other) :: locals) globals (updating (operation_symbol o) ex) _
      (fun s => if String.eqb s "output"%string then out else A s) (ashape out) (updating_read _ _ o HR)) as (y & E & S & V).
    + cbn [functions app]. apply HC.
    + intros s Hs. destruct Hs as [<-|Hs]; [reflexivity|]. cbn [app] in Hs. destruct (HA s Hs) as [[_ ->] B].
      destruct (String.eqb_spec s "output") as [->|N]; auto. exfalso. apply B; auto. discriminate.
    + intros s [<-|Hs]; [apply stretches_refl|]. cbn [app] in Hs. destruct (String.eqb_spec s "output") as [->|N]; auto. apply stretches_refl.
    + exists y. split; [exact E|]. split; [congruence|]. intros idx Hi. rewrite V. cbn [value]. rewrite String.eqb_refl, stretched_same by congruence. f_equal.
      rewrite <- VA by auto. apply value_ext. intros s Hs. destruct (String.eqb_spec s "output") as [->|N]; auto.
      exfalso. destruct (HA _ Hs) as [_ B]. apply B; auto. discriminate.
  - destruct (evaluate_out_ok locals globals ex e A (ashape out) HR (proj1 HC)) as (y & E & S & V); auto.
    + intros s Hs. apply HA; auto.
    + exists y. split; [exact E|]. split; [congruence|]. intros idx Hi. rewrite V. auto.
Qed.
End Values.
