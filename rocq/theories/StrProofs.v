(** Proofs about the texts of operators. *)
From Coq Require Import Ascii String.
From Verif Require Import Base StrModel StrSpec.
Local Open Scope nat_scope.
Local Notation length := List.length.

Ltac unlit := cbv [lit list_ascii_of_string]; cbn [app].
Ltac unlit_in H := cbv [lit list_ascii_of_string] in H; cbn [app] in H.

(** ** The notation is unambiguous *)
Definition no_name (s : text) : Prop := match s with c :: _ => name_char c = false | [] => True end.
Lemma span n n' r r' : forallb name_char n = true -> forallb name_char n' = true -> no_name r -> no_name r' -> n ++ r = n' ++ r' -> n = n' /\ r = r'.
Proof.
  revert n'. induction n as [|c n IH]; intros [|c' n'] H H' N N' E; cbn [app forallb] in *.
  - auto.
  - subst r. apply andb_true_iff in H'. destruct H' as (H' & _). cbn in N. congruence.
  - subst r'. apply andb_true_iff in H. destruct H as (H & _). cbn in N'. congruence.
  - apply andb_true_iff in H, H'. injection E as <- E. destruct (IH n' (proj2 H) (proj2 H') N N' E). subst. auto.
Qed.
Definition not_paren (c : ascii) : bool := negb (Ascii.eqb c "(") && negb (Ascii.eqb c ")").
Lemma span_args a a' r r' : forallb not_paren a = true -> forallb not_paren a' = true -> a ++ ")"%char :: r = a' ++ ")"%char :: r' -> a = a' /\ r = r'.
Proof.
  revert a'. induction a as [|c a IH]; intros [|c' a'] H H' E; cbn [app forallb] in *.
  - injection E as E. auto.
  - injection E as <- E. apply andb_true_iff in H'. destruct H' as (H' & _). discriminate.
  - injection E as -> E. apply andb_true_iff in H. destruct H as (H & _). discriminate.
  - apply andb_true_iff in H, H'. injection E as <- E. destruct (IH a' (proj2 H) (proj2 H') E). subst. auto.
Qed.

(** What may follow an expression, a term of a sum, a factor of an element-wise product *)
Definition end_sum (r : text) : Prop := match r with [] => True | c :: _ => c = ")"%char \/ c = ","%char end.
Definition end_term (r : text) : Prop := end_sum r \/ exists r', r = lit " + " ++ r'.
Definition end_factor (r : text) : Prop := end_term r \/ exists r', r = lit " × " ++ r'.
Definition item (t : tree) : text := if is_sum t then lit "(" ++ print t ++ lit ")" else print t.
Lemma print_sum l : print (Sum l) = separated (lit " + ") (map item l). Proof. reflexivity. Qed.
Lemma print_mul l : print (Mul l) = separated (lit " × ") (map item l). Proof. reflexivity. Qed.
Lemma end_factor_no_name r : end_factor r -> no_name r.
Proof.
  intros [[H|[r' ->]]|[r' ->]]; [|reflexivity|reflexivity]. destruct r as [|c r]; [exact I|]. destruct H as [-> | ->]; reflexivity.
Qed.
Lemma all_wf l : (fix all l := match l with [] => True | t :: l => well_formed t /\ all l end) l <-> Forall well_formed l.
Proof. induction l as [|t l IH]; [split; constructor|]. rewrite Forall_cons_iff, IH. reflexivity. Qed.
Lemma wf_sum l : well_formed (Sum l) <-> 2 <= length l /\ Forall well_formed l.
Proof. cbn [well_formed]. rewrite all_wf. reflexivity. Qed.
Lemma wf_mul l : well_formed (Mul l) <-> 2 <= length l /\ Forall well_formed l /\ Forall (fun t => is_mul t = false) l.
Proof. cbn [well_formed]. rewrite all_wf. reflexivity. Qed.

Fixpoint size (t : tree) : nat :=
  match t with Name _ | Fun _ _ | Prod _ => 1 | App t u => S (size t + size u) | Sum l | Mul l => S ((fix sizes l := match l with [] => 0 | t :: l => size t + sizes l end) l) end.
Lemma size_in t l : In t l -> size t <= (fix sizes l := match l with [] => 0 | t :: l => size t + sizes l end) l.
Proof. induction l as [|u l IH]; intros H; [destruct H|]. destruct H as [->|H]; [lia|]. specialize (IH H). lia. Qed.

(** Names separated by ' * ' *)
Lemma names_unique ns ns' r r' : Forall name ns -> Forall name ns' -> end_factor r -> end_factor r' ->
  flat_map (fun y => lit " * " ++ y) ns ++ r = flat_map (fun y => lit " * " ++ y) ns' ++ r' -> ns = ns' /\ r = r'.
Proof.
  revert ns'. assert (X : forall r s, end_factor r -> r = " "%char :: "*"%char :: s -> False).
  { clear. intros r s [[H|[r' ->]]|[r' ->]] E; try (unlit_in E; discriminate). subst r. cbn in H. destruct H; discriminate. }
  assert (N : forall ns r, end_factor r -> no_name (flat_map (fun y => lit " * " ++ y) ns ++ r)).
  { clear. intros [|n ns] r H; [apply end_factor_no_name; exact H|reflexivity]. }
  induction ns as [|n ns IH]; intros [|n' ns'] H H' F F' E.
  - auto.
  - exfalso. cbn [flat_map app] in E. unlit_in E. exact (X _ _ F E).
  - exfalso. cbn [flat_map app] in E. unlit_in E. exact (X _ _ F' (eq_sym E)).
  - inversion H; inversion H'; subst. cbn [flat_map] in E. unlit_in E. injection E as E. rewrite <- !app_assoc in E.
    destruct (span n n' _ _ (proj2 H2) (proj2 H6) (N ns r F) (N ns' r' F') E) as (-> & E'). destruct (IH ns' H3 H7 F F' E') as (-> & ->). auto.
Qed.

(** Items with a separator *)
Lemma items_unique (sep : text) (fin fin' : text -> Prop) (l l' : list tree) r r' (ok : tree -> Prop) :
  (forall r, fin r -> fin' r) -> (forall r, fin' (sep ++ r)) -> (forall r s, fin r -> r = sep ++ s -> False) ->
  (forall t, In t l -> forall t' r r', ok t' -> fin' r -> fin' r' -> item t ++ r = item t' ++ r' -> t = t' /\ r = r') ->
  Forall ok l' -> l <> [] -> l' <> [] -> fin r -> fin r' -> separated sep (map item l) ++ r = separated sep (map item l') ++ r' -> l = l' /\ r = r'.
Proof.
  intros Ff Fs X IH K N N' F F'. destruct l as [|t l]; [contradiction N; reflexivity|]. destruct l' as [|t' l']; [contradiction N'; reflexivity|]. clear N N'. cbn [map separated]. rewrite <- !app_assoc.
  revert t t' IH K. revert l'. induction l as [|u l IHl]; intros [|u' l'] t t' IH K E; cbn [map flat_map] in E; rewrite ?app_nil_l in E.
  - inversion K; subst. destruct (IH t (or_introl eq_refl) t' r r' H1 (Ff _ F) (Ff _ F') E) as (-> & ->). auto.
  - inversion K; subst. rewrite <- !app_assoc in E. destruct (IH t (or_introl eq_refl) t' _ _ H1 (Ff _ F) (Fs _) E) as (_ & E'). exfalso. exact (X _ _ F E').
  - inversion K; subst. rewrite <- !app_assoc in E. destruct (IH t (or_introl eq_refl) t' _ _ H1 (Fs _) (Ff _ F') E) as (_ & E'). exfalso. exact (X _ _ F' (eq_sym E')).
  - inversion K; subst. rewrite <- !app_assoc in E. destruct (IH t (or_introl eq_refl) t' _ _ H1 (Fs _) (Fs _) E) as (-> & E'). apply app_inv_head in E'.
    destruct (IHl l' u u' (fun v Hv => IH v (or_intror Hv)) H2 E') as (E2 & ->). injection E2 as -> ->. auto.
Qed.

Definition unique_sum (t : tree) : Prop := forall t' r r', well_formed t' -> end_sum r -> end_sum r' -> print t ++ r = print t' ++ r' -> t = t' /\ r = r'.
Definition unique_term (t : tree) : Prop := forall t' r r', well_formed t' -> end_term r -> end_term r' -> item t ++ r = item t' ++ r' -> t = t' /\ r = r'.
Definition unique_factor (t : tree) : Prop := forall t' r r', well_formed t' /\ is_mul t' = false -> end_factor r -> end_factor r' -> item t ++ r = item t' ++ r' -> t = t' /\ r = r'.

Definition terms (t : tree) : list tree := match t with Sum l => l | _ => [t] end.
Definition factors (t : tree) : list tree := match t with Mul l => l | _ => [t] end.
Lemma print_terms t : print t = separated (lit " + ") (map item (terms t)).
Proof. destruct t; try (cbn [terms map separated flat_map]; rewrite app_nil_r; reflexivity). reflexivity. Qed.
Lemma item_factors t : item t = separated (lit " × ") (map item (factors t)).
Proof. destruct t; try (cbn [factors map separated flat_map]; rewrite app_nil_r; reflexivity). reflexivity. Qed.
Lemma wf_terms t : well_formed t -> Forall well_formed (terms t) /\ terms t <> [].
Proof. intros H. destruct t; try (split; [constructor; [exact H|constructor]|discriminate]). apply wf_sum in H. split; [apply H|]. destruct l; [cbn in H; lia|discriminate]. Qed.
Lemma wf_factors t : well_formed t -> Forall (fun t => well_formed t /\ is_mul t = false) (factors t) /\ factors t <> [].
Proof.
  intros H. destruct t; try (split; [constructor; [split; [exact H|reflexivity]|constructor]|discriminate]). apply wf_mul in H. destruct H as (L & H & M). split; [|destruct l; [cbn in L; lia|discriminate]].
  rewrite Forall_forall in *. auto.
Qed.
Lemma terms_inj t t' : well_formed t -> well_formed t' -> terms t = terms t' -> t = t'.
Proof.
  intros H H' E. destruct (is_sum t) eqn:S1, (is_sum t') eqn:S2.
  - destruct t; try discriminate S1. destruct t'; try discriminate S2. cbn in E. congruence.
  - destruct t; try discriminate S1. apply wf_sum in H. cbn [terms] in E. destruct t'; try discriminate S2; cbn in E; subst l; cbn in H; lia.
  - destruct t'; try discriminate S2. apply wf_sum in H'. cbn [terms] in E. destruct t; try discriminate S1; cbn in E; subst l; cbn in H'; lia.
  - destruct t, t'; try discriminate S1; try discriminate S2; cbn in E; congruence.
Qed.
Lemma factors_inj t t' : well_formed t -> well_formed t' -> factors t = factors t' -> t = t'.
Proof.
  intros H H' E. destruct (is_mul t) eqn:S1, (is_mul t') eqn:S2.
  - destruct t; try discriminate S1. destruct t'; try discriminate S2. cbn in E. congruence.
  - destruct t; try discriminate S1. apply wf_mul in H. cbn [factors] in E. destruct t'; try discriminate S2; cbn in E; subst l; cbn in H; lia.
  - destruct t'; try discriminate S2. apply wf_mul in H'. cbn [factors] in E. destruct t; try discriminate S1; cbn in E; subst l; cbn in H'; lia.
  - destruct t, t'; try discriminate S1; try discriminate S2; cbn in E; congruence.
Qed.
Lemma sum_from_terms t : well_formed t -> (forall u, In u (terms t) -> unique_term u) -> unique_sum t.
Proof.
  intros W H t' r r' W' F F' E. rewrite (print_terms t), (print_terms t') in E. destruct (wf_terms t' W') as (K & N').
  destruct (items_unique (lit " + ") end_sum end_term (terms t) (terms t') r r' well_formed) as (E2 & ->); auto.
  - intros s Hs. left. exact Hs.
  - intros s. right. eauto.
  - intros s s' Hs ->. cbn in Hs. destruct Hs; discriminate.
  - apply wf_terms, W.
  - split; [apply terms_inj; assumption|reflexivity].
Qed.
Lemma term_from_factors t : well_formed t -> (forall u, In u (factors t) -> unique_factor u) -> unique_term t.
Proof.
  intros W H t' r r' W' F F' E. rewrite (item_factors t), (item_factors t') in E. destruct (wf_factors t' W') as (K & N').
  destruct (items_unique (lit " × ") end_term end_factor (factors t) (factors t') r r' (fun t => well_formed t /\ is_mul t = false)) as (E2 & ->); auto.
  - intros s Hs. left. exact Hs.
  - intros s. right. eauto.
  - intros s s' [Hs|[s2 ->]] Es; [subst s; cbn in Hs; destruct Hs; discriminate|unlit_in Es; discriminate].
  - apply wf_factors, W.
  - split; [apply factors_inj; assumption|reflexivity].
Qed.

(** The text of a factor starts with a name or with a parenthesis *)
Inductive start := SName (n rest : text) | SParen (t : tree) (rest : text).
Definition begin (t : tree) : start :=
  match t with
  | Name n => SName n []
  | Fun n a => SName n (lit "(..., " ++ a ++ lit ")")
  | Prod (n :: ns) => SName n (flat_map (fun y => lit " * " ++ y) ns)
  | App (Name n) u => SName n (lit "(" ++ print u ++ lit ")")
  | App (Fun n a) u => SName n (lit "(" ++ print u ++ lit ", " ++ a ++ lit ")")
  | App t u => SParen t (lit "(" ++ print u ++ lit ")")
  | _ => SParen t []
  end.
Lemma begin_item t : well_formed t -> is_mul t = false -> item t = match begin t with SName n rest => n ++ rest | SParen t rest => lit "(" ++ print t ++ lit ")" ++ rest end.
Proof.
  intros W M. destruct t as [n|n a|[|n l]|t u|l|l]; try discriminate M; unfold item; cbn [is_sum begin].
  - symmetry. apply app_nil_r.
  - reflexivity.
  - destruct W as (L & _). cbn in L. lia.
  - reflexivity.
  - destruct t; cbn [begin]; try reflexivity; cbn [print]; unlit; rewrite <- ?app_assoc; reflexivity.
  - unlit. reflexivity.
Qed.
Lemma print_start t : well_formed t -> exists c s, print t = c :: s /\ (c = "("%char \/ name_char c = true).
Proof.
  assert (N : forall n s, name n -> exists c s', n ++ s = c :: s' /\ (c = "("%char \/ name_char c = true)).
  { intros [|c n] s (H & H'); [contradiction H; reflexivity|]. cbn in H'. apply andb_true_iff in H'. exists c, (n ++ s). split; [reflexivity|]. right. apply H'. }
  assert (key : forall k t, size t < k -> well_formed t -> exists c s, print t = c :: s /\ (c = "("%char \/ name_char c = true)).
  2: { intros W. exact (key (S (size t)) t (le_n _) W). }
  induction k as [|k IH]; intros t' Hk W; [lia|].
  assert (L : forall sep l, (forall t, In t l -> size t < k) -> l <> [] -> Forall well_formed l -> exists c s, separated sep (map item l) = c :: s /\ (c = "("%char \/ name_char c = true)).
  { intros sep [|u l] Hs Hn Hf; [contradiction Hn; reflexivity|]. inversion Hf; subst. cbn [map separated]. unfold item at 1. destruct (is_sum u).
    - unlit. eexists _, _. split; [reflexivity|]. auto.
    - destruct (IH u (Hs u (or_introl eq_refl)) H1) as (c & s & -> & H). eexists _, _. split; [reflexivity|exact H]. }
  destruct t' as [n|n a|[|n l]|t' u|l|l].
  - destruct (N n [] W) as (c & s & E & H). rewrite app_nil_r in E. eauto.
  - apply N, W.
  - destruct W as (W & _). cbn in W. lia.
  - destruct W as (_ & W). inversion W; subst. apply N. assumption.
  - destruct t'; cbn [print]; try (unlit; eexists _, _; split; [reflexivity|left; reflexivity]); apply N, W.
  - apply wf_sum in W. rewrite print_sum. apply L; [|destruct l; [cbn in W; lia|discriminate]|apply W]. intros u Hu. apply size_in in Hu. cbn [size] in Hk. lia.
  - apply wf_mul in W. rewrite print_mul. apply L; [|destruct l; [cbn in W; lia|discriminate]|apply W]. intros u Hu. apply size_in in Hu. cbn [size] in Hk. lia.
Qed.

Definition smaller_unique (t : tree) : Prop := forall u, size u < size t -> well_formed u -> unique_sum u.
Lemma begin_name t n rest r : well_formed t -> begin t = SName n rest -> end_factor r -> name n /\ no_name (rest ++ r).
Proof.
  intros W E F. destruct t as [m|m a|[|m l]|[m|m a|l|t1 t2|l|l] u|l|l]; cbn [begin] in E; try discriminate E; injection E as <- <-; cbn [well_formed] in W.
  - split; [exact W|apply end_factor_no_name, F].
  - split; [apply W|reflexivity].
  - destruct W as (_ & W). inversion W; subst. split; [assumption|]. destruct l; [apply end_factor_no_name, F|reflexivity].
  - split; [apply W|reflexivity].
  - split; [apply W|reflexivity].
Qed.
Lemma begin_paren t u rest : well_formed t -> is_mul t = false -> begin t = SParen u rest ->
  well_formed u /\ ((t = u /\ is_sum t = true /\ rest = []) \/ exists v, t = App u v /\ rest = lit "(" ++ print v ++ lit ")" /\ well_formed v /\ match u with Name _ | Fun _ _ => False | _ => True end).
Proof.
  intros W M E. destruct t as [m|m a|[|m l]|t1 v|l|l]; try discriminate M; cbn [begin] in E; try discriminate E.
  - destruct W as (W & _). cbn in W. lia.
  - destruct t1; try discriminate E; try (exfalso; exact (proj1 W)); injection E as <- <-; (split; [apply W|]); right; (eexists; split; [reflexivity|]; split; [reflexivity|]; split; [apply W|exact I]).
  - injection E as <- <-. split; [exact W|]. left. auto.
Qed.
Lemma not_end c r : end_factor (c :: r) -> c = ")"%char \/ c = ","%char \/ c = " "%char.
Proof. intros [[H|[s E]]|[s E]]; [destruct H; auto|unlit_in E; injection E as -> _; auto|unlit_in E; injection E as -> _; auto]. Qed.
Lemma not_star r s : end_factor r -> r = " "%char :: "*"%char :: s -> False.
Proof. intros [[H|[r' ->]]|[r' ->]] E; try (unlit_in E; discriminate). subst r. cbn in H. destruct H; discriminate. Qed.
Lemma not_open r s : end_factor r -> r = "("%char :: s -> False.
Proof. intros H ->. apply not_end in H. destruct H as [|[|]]; discriminate. Qed.
Lemma not_dots u s r : well_formed u -> print u ++ r = "."%char :: s -> False.
Proof. intros W E. destruct (print_start u W) as (c & s' & E' & H). rewrite E' in E. injection E as -> _. destruct H; discriminate. Qed.
Lemma end_close r : end_sum (")"%char :: r). Proof. left. reflexivity. Qed.
Lemma end_comma r : end_sum (","%char :: r). Proof. right. reflexivity. Qed.

Ltac flat E := cbn [begin] in E; repeat (unlit_in E; rewrite <- ?app_assoc in E); unlit_in E.
Lemma tails t t' n rest rest' r r' : well_formed t -> well_formed t' -> smaller_unique t -> end_factor r -> end_factor r' ->
  begin t = SName n rest -> begin t' = SName n rest' -> rest ++ r = rest' ++ r' -> t = t' /\ r = r'.
Proof.
  intros W W' IH F F' B B' E.
  destruct t as [m|m a|[|m l]|[m|m a|l|t1 t2|l|l] u|l|l]; cbn [begin] in B; try discriminate B; injection B as -> <-;
    destruct t' as [m'|m' a'|[|m' l']|[m'|m' a'|l'|t1' t2'|l'|l'] u'|l'|l']; cbn [begin] in B'; try discriminate B'; injection B' as -> <-;
    cbn [well_formed] in W, W'; repeat (rewrite <- app_assoc in E); cbn [flat_map] in E; unlit_in E.
  - (* Name *) auto.
  - exfalso. exact (not_open _ _ F E).
  - destruct W' as (L & _). destruct l' as [|k l']; [cbn in L; lia|]. exfalso. cbn [flat_map] in E. unlit_in E. exact (not_star _ _ F E).
  - exfalso. exact (not_open _ _ F E).
  - exfalso. exact (not_open _ _ F E).
  - (* Fun *) exfalso. exact (not_open _ _ F' (eq_sym E)).
  - injection E as E. rewrite <- !app_assoc in E. unlit_in E. destruct (span_args a a' r r' (proj1 (proj2 W)) (proj1 (proj2 W')) E) as (-> & ->). auto.
  - exfalso. destruct W' as (L & _). destruct l' as [|k l']; [cbn in L; lia|]. cbn [flat_map] in E. unlit_in E. discriminate.
  - exfalso. injection E as E. symmetry in E. rewrite <- ?app_assoc in E. exact (not_dots u' _ _ (proj2 W') E).
  - exfalso. injection E as E. symmetry in E. rewrite <- ?app_assoc in E. exact (not_dots u' _ _ (proj2 W') E).
  - (* Prod *) destruct W as (L & _). destruct l as [|k l]; [cbn in L; lia|]. exfalso. cbn [flat_map] in E. unlit_in E. exact (not_star _ _ F' (eq_sym E)).
  - exfalso. destruct W as (L & _). destruct l as [|k l]; [cbn in L; lia|]. cbn [flat_map] in E. unlit_in E. discriminate.
  - destruct W as (_ & W), W' as (_ & W'). inversion W; inversion W'; subst. destruct (names_unique l l' r r' H2 H6 F F' E) as (-> & ->). auto.
  - exfalso. destruct W as (L & _). destruct l as [|k l]; [cbn in L; lia|]. cbn [flat_map] in E. unlit_in E. discriminate.
  - exfalso. destruct W as (L & _). destruct l as [|k l]; [cbn in L; lia|]. cbn [flat_map] in E. unlit_in E. discriminate.
  - (* App Name *) exfalso. exact (not_open _ _ F' (eq_sym E)).
  - exfalso. injection E as E. rewrite <- ?app_assoc in E. exact (not_dots u _ _ (proj2 W) E).
  - exfalso. destruct W' as (L & _). destruct l' as [|k l']; [cbn in L; lia|]. cbn [flat_map] in E. unlit_in E. discriminate.
  - injection E as E. rewrite <- !app_assoc in E. unlit_in E. destruct (IH u ltac:(cbn [size]; lia) (proj2 W) u' _ _ (proj2 W') (end_close _) (end_close _) E) as (-> & E'). injection E' as ->. auto.
  - injection E as E. rewrite <- !app_assoc in E. unlit_in E. destruct (IH u ltac:(cbn [size]; lia) (proj2 W) u' _ _ (proj2 W') (end_close _) (end_comma _) E) as (_ & E'). discriminate.
  - (* App Fun *) exfalso. exact (not_open _ _ F' (eq_sym E)).
  - exfalso. injection E as E. rewrite <- ?app_assoc in E. exact (not_dots u _ _ (proj2 W) E).
  - exfalso. destruct W' as (L & _). destruct l' as [|k l']; [cbn in L; lia|]. cbn [flat_map] in E. unlit_in E. discriminate.
  - injection E as E. rewrite <- !app_assoc in E. unlit_in E. destruct (IH u ltac:(cbn [size]; lia) (proj2 W) u' _ _ (proj2 W') (end_comma _) (end_close _) E) as (_ & E'). discriminate.
  - injection E as E. rewrite <- !app_assoc in E. unlit_in E. destruct (IH u ltac:(cbn [size]; lia) (proj2 W) u' _ _ (proj2 W') (end_comma _) (end_comma _) E) as (-> & E'). injection E' as E'. rewrite <- !app_assoc in E'. unlit_in E'.
    destruct (span_args a a' r r' (proj1 (proj2 (proj1 W))) (proj1 (proj2 (proj1 W'))) E') as (-> & ->). auto.
Qed.

Lemma factor_unique t : well_formed t -> is_mul t = false -> smaller_unique t -> (is_sum t = true -> unique_sum t) -> unique_factor t.
Proof.
  intros W M IH IHs t' r r' (W' & M') F F' E. rewrite (begin_item t W M), (begin_item t' W' M') in E.
  destruct (begin t) as [n rest|u rest] eqn:B, (begin t') as [n' rest'|u' rest'] eqn:B'.
  - destruct (begin_name t n rest r W B F) as (N & S). destruct (begin_name t' n' rest' r' W' B' F') as (N' & S'). rewrite <- !app_assoc in E.
    destruct (span n n' _ _ (proj2 N) (proj2 N') S S' E) as (-> & E'). exact (tails t t' n' rest rest' r r' W W' IH F F' B B' E').
  - exfalso. destruct (begin_name t n rest r W B F) as ((N & N2) & _). destruct n as [|c n]; [contradiction N; reflexivity|]. cbn in N2. apply andb_true_iff in N2. unlit_in E. injection E as -> _. destruct N2. discriminate.
  - exfalso. destruct (begin_name t' n' rest' r' W' B' F') as ((N & N2) & _). destruct n' as [|c n']; [contradiction N; reflexivity|]. cbn in N2. apply andb_true_iff in N2. unlit_in E. injection E as <- _. destruct N2. discriminate.
  - unlit_in E. injection E as E. rewrite <- !app_assoc in E. unlit_in E.
    destruct (begin_paren t u rest W M B) as (Wu & C), (begin_paren t' u' rest' W' M' B') as (Wu' & C').
    assert (U : unique_sum u). { destruct C as [(-> & S & _)|(v & -> & _)]; [exact (IHs S)|]. apply IH; [cbn [size]; lia|exact Wu]. }
    destruct (U u' _ _ Wu' (end_close _) (end_close _) E) as (<- & E'). injection E' as E'.
    destruct C as [(-> & S & ->)|(v & -> & -> & Wv & X)], C' as [(-> & S' & ->)|(v' & -> & -> & Wv' & X')]; cbn [app] in E'.
    + auto.
    + exfalso. exact (not_open _ _ F E').
    + exfalso. exact (not_open _ _ F' (eq_sym E')).
    + unlit_in E'. injection E' as E'. rewrite <- !app_assoc in E'. unlit_in E'. destruct (IH v ltac:(cbn [size]; lia) Wv v' _ _ Wv' (end_close _) (end_close _) E') as (-> & E2). injection E2 as ->. auto.
Qed.

Lemma print_unique t : well_formed t -> unique_sum t.
Proof.
  assert (key : forall k t, size t < k -> well_formed t -> unique_sum t).
  2: { intros W. exact (key (S (size t)) t (le_n _) W). }
  induction k as [|k IH]; intros t' Hk W; [lia|].
  assert (F : forall u, size u < k -> well_formed u -> is_mul u = false -> unique_factor u).
  { intros u Hu Wu Mu. apply factor_unique; [exact Wu|exact Mu|intros v Hv Wv; apply IH; [lia|exact Wv]|intros _; apply IH; assumption]. }
  assert (T : forall u, size u < k -> well_formed u -> unique_term u).
  { intros u Hu Wu. apply term_from_factors; [exact Wu|]. intros v Hv. pose proof (proj1 (Forall_forall _ _) (proj1 (wf_factors u Wu)) v Hv) as (Wv & Mv). apply F; [|exact Wv|exact Mv].
    destruct u; try (destruct Hv as [<-|[]]; exact Hu). cbn [factors] in Hv. apply size_in in Hv. cbn [size] in Hu. lia. }
  destruct (is_sum t') eqn:S1.
  - destruct t'; try discriminate S1. apply sum_from_terms; [exact W|]. intros u Hu. cbn [terms] in Hu. apply T; [|apply wf_sum in W; rewrite Forall_forall in W; apply W, Hu]. apply size_in in Hu. cbn [size] in Hk. lia.
  - apply sum_from_terms; [exact W|]. intros u Hu. assert (u = t') as -> by (destruct t'; try discriminate S1; destruct Hu as [<-|[]]; reflexivity).
    apply term_from_factors; [exact W|]. intros v Hv. pose proof (proj1 (Forall_forall _ _) (proj1 (wf_factors t' W)) v Hv) as (Wv & Mv).
    destruct (is_mul t') eqn:M1.
    + destruct t'; try discriminate M1. cbn [factors] in Hv. apply F; [|exact Wv|exact Mv]. apply size_in in Hv. cbn [size] in Hk. lia.
    + assert (v = t') as -> by (destruct t'; try discriminate M1; destruct Hv as [<-|[]]; reflexivity).
      apply factor_unique; [exact W|exact M1|intros w Hw Ww; apply IH; [lia|exact Ww]|congruence].
Qed.
Lemma print_injective t t' : well_formed t -> well_formed t' -> print t = print t' -> t = t'.
Proof. intros W W' E. apply (print_unique t W t' [] [] W' I I). rewrite E. reflexivity. Qed.

(** ** What str computes *)
Lemma join_separated sep l : join sep l = separated sep l.
Proof. induction l as [|x [|y l] IH]; [reflexivity|cbn; rewrite app_nil_r; reflexivity|]. change (join sep (x :: y :: l)) with (x ++ sep ++ join sep (y :: l)). rewrite IH. cbn [separated flat_map]. rewrite <- app_assoc. reflexivity. Qed.

Lemma starts_app p s : starts p (p ++ s) = true.
Proof. induction p as [|c p IH]; [reflexivity|]. cbn [starts app]. rewrite Ascii.eqb_refl. exact IH. Qed.
Lemma contains_app x p y : contains p (x ++ p ++ y) = true.
Proof. induction x as [|c x IH]; cbn [app]; [destruct (p ++ y) as [|d s] eqn:E; cbn [contains]; rewrite <- E, starts_app; reflexivity|]. cbn [contains]. rewrite IH. apply orb_true_r. Qed.
Lemma contains_in c p s : contains (c :: p) s = true -> In c s.
Proof.
  induction s as [|d s IH]; cbn [contains starts]; [discriminate|]. intros H. apply orb_true_iff in H. destruct H as [H|H]; [|right; exact (IH H)].
  apply andb_true_iff in H. left. symmetry. apply Ascii.eqb_eq, H.
Qed.
Lemma name_without n c p : name n -> name_char c = false -> contains (c :: p) n = false.
Proof.
  intros (_ & H) C. destruct (contains (c :: p) n) eqn:E; [|reflexivity]. apply contains_in in E. rewrite forallb_forall in H. apply H in E. congruence.
Qed.
Lemma separated_space sep l : 2 <= length l -> contains (lit " ") (separated (" "%char :: sep) l) = true.
Proof.
  intros L. destruct l as [|x [|y l]]; cbn in L; try lia. cbn [separated flat_map app]. exact (contains_app x (lit " ") _).
Qed.

Lemma replace_none new s : contains (lit "...") s = false -> replace_dots new s = s.
Proof.
  induction s as [|a s IH]; [reflexivity|]. intros H. cbn [contains] in H. apply orb_false_iff in H. destruct H as (H1 & H2). specialize (IH H2).
  destruct s as [|b [|c r]]; [reflexivity|cbn [replace_dots] in IH |- *; reflexivity|].
  change (replace_dots new (a :: b :: c :: r)) with (if Ascii.eqb a "." && Ascii.eqb b "." && Ascii.eqb c "." then new ++ replace_dots new r else a :: replace_dots new (b :: c :: r)).
  replace (Ascii.eqb a "." && Ascii.eqb b "." && Ascii.eqb c ".") with false; [rewrite IH; reflexivity|]. symmetry. unlit_in H1. cbn [starts] in H1. rewrite andb_true_r, andb_assoc in H1.
  rewrite (Ascii.eqb_sym a), (Ascii.eqb_sym b), (Ascii.eqb_sym c). exact H1.
Qed.
Lemma replace_skip new a s : Ascii.eqb a "." = false -> replace_dots new (a :: s) = a :: replace_dots new s.
Proof. intros H. destruct s as [|b [|c r]]; [reflexivity|reflexivity|]. cbn [replace_dots]. rewrite H. reflexivity. Qed.
Lemma replace_name new n s : name n -> replace_dots new (n ++ s) = n ++ replace_dots new s.
Proof.
  intros (_ & H). induction n as [|c n IH]; [reflexivity|]. cbn [forallb] in H. apply andb_true_iff in H. cbn [app]. rewrite replace_skip, IH; [reflexivity|apply H|].
  destruct (Ascii.eqb c ".") eqn:E; [|reflexivity]. apply Ascii.eqb_eq in E. subst c. destruct H. discriminate.
Qed.
Lemma contains_close a : contains (lit "...") a = false -> contains (lit "...") (a ++ [")"%char]) = false.
Proof.
  induction a as [|c a IH]; [reflexivity|]. cbn [contains app]. intros H. apply orb_false_iff in H. destruct H as (H1 & H2). rewrite (IH H2), orb_false_r. revert H1. unlit.
  destruct a as [|d [|e a]]; cbn [starts app]; intros H1; [rewrite andb_false_r; reflexivity|rewrite !andb_false_r; reflexivity|exact H1].
Qed.
Lemma replace_fun new n a : name n -> arguments a -> replace_dots new (n ++ lit "(..., " ++ a ++ lit ")") = n ++ lit "(" ++ new ++ lit ", " ++ a ++ lit ")".
Proof.
  intros N (_ & A). rewrite replace_name by exact N. unlit. rewrite replace_skip by reflexivity.
  assert (D : forall s, replace_dots new ("."%char :: "."%char :: "."%char :: s) = new ++ replace_dots new s) by reflexivity. rewrite D, !replace_skip by reflexivity.
  rewrite (replace_none new (a ++ [")"%char])) by (apply contains_close, A). reflexivity.
Qed.

(** Groups *)
Fixpoint snoc_group (gs : list (bool * list text)) (x : bool * text) : list (bool * list text) :=
  match gs with
  | [] => [(fst x, [snd x])]
  | [(b, g)] => if Bool.eqb b (fst x) then [(b, g ++ [snd x])] else [(b, g); (fst x, [snd x])]
  | g :: gs => g :: snoc_group gs x
  end.
Lemma groups_snoc l x : groups (l ++ [x]) = snoc_group (groups l) x.
Proof.
  destruct x as (b, t). induction l as [|(c, u) l IH]; [reflexivity|]. cbn [app groups]. rewrite IH. destruct (groups l) as [|(d, g) gs]; cbn [snoc_group fst snd].
  - destruct c, b; reflexivity.
  - destruct gs as [|g2 gs].
    + destruct d, b, c; reflexivity.
    + destruct d, c; reflexivity.
Qed.
Definition shown (l : list (bool * text)) : text := fold_left apply_group (groups l) [].
Lemma fold_snoc_nonlinear gs s t : fold_left apply_group (snoc_group gs (false, t)) s = apply_nonlinear (fold_left apply_group gs s) t.
Proof.
  revert s. induction gs as [|(b, g) gs IH]; intros s; [reflexivity|]. destruct gs as [|g2 gs].
  - cbn [snoc_group fst snd]. destruct b; cbn [Bool.eqb fold_left]; [reflexivity|]. unfold apply_group. cbn [fst snd]. rewrite fold_left_app. reflexivity.
  - change (snoc_group ((b, g) :: g2 :: gs) (false, t)) with ((b, g) :: snoc_group (g2 :: gs) (false, t)). cbn [fold_left]. apply IH.
Qed.
Lemma shown_nonlinear l t : shown (l ++ [(false, t)]) = apply_nonlinear (shown l) t.
Proof. unfold shown. rewrite groups_snoc. apply fold_snoc_nonlinear. Qed.
Lemma snoc_other gs b b' g x : b <> b' -> snoc_group (gs ++ [(b, g)]) (b', x) = (gs ++ [(b, g)]) ++ [(b', [x])].
Proof.
  intros H. induction gs as [|(hb, hg) gs IH]; [cbn; destruct b, b'; try reflexivity; contradiction H; reflexivity|].
  cbn [app]. destruct (gs ++ [(b, g)]) as [|h2 gs2] eqn:E; [destruct gs; discriminate|]. change (snoc_group ((hb, hg) :: h2 :: gs2) (b', x)) with ((hb, hg) :: snoc_group (h2 :: gs2) (b', x)). rewrite IH. reflexivity.
Qed.
Lemma snoc_same gs b g x : snoc_group (gs ++ [(b, g)]) (b, x) = gs ++ [(b, g ++ [x])].
Proof.
  induction gs as [|(hb, hg) gs IH]; [cbn; destruct b; reflexivity|].
  cbn [app]. destruct (gs ++ [(b, g)]) as [|h2 gs2] eqn:E; [destruct gs; discriminate|]. change (snoc_group ((hb, hg) :: h2 :: gs2) (b, x)) with ((hb, hg) :: snoc_group (h2 :: gs2) (b, x)). rewrite IH. reflexivity.
Qed.
Lemma groups_last l b t : exists gs g, groups (l ++ [(b, t)]) = gs ++ [(b, g)].
Proof.
  rewrite groups_snoc. destruct (groups l) as [|h gs] using rev_ind; [exists [], [t]; reflexivity|]. destruct h as (c, g). destruct (Bool.bool_dec c b) as [->|N].
  - rewrite snoc_same. eauto.
  - rewrite snoc_other by exact N. eauto.
Qed.
(** A run of linear operators, after the beginning or after an operator that is not linear *)
Lemma groups_run l ts : ts <> [] -> (l = [] \/ exists l' t, l = l' ++ [(false, t)]) -> groups (l ++ map (pair true) ts) = groups l ++ [(true, ts)].
Proof.
  intros N H. induction ts as [|t ts IH] using rev_ind; [contradiction N; reflexivity|]. rewrite map_app, app_assoc. cbn [map]. rewrite groups_snoc. destruct ts as [|u ts].
  - cbn [map]. rewrite app_nil_r. destruct H as [->|(l' & v & ->)]; [reflexivity|]. destruct (groups_last l' false v) as (gs & g & ->). rewrite snoc_other by discriminate. reflexivity.
  - rewrite IH by discriminate. apply snoc_same.
Qed.
Lemma shown_run l ts : ts <> [] -> (l = [] \/ exists l' t, l = l' ++ [(false, t)]) -> shown (l ++ map (pair true) ts) = apply_group (shown l) (true, ts).
Proof. intros N H. unfold shown. rewrite groups_run by assumption. rewrite fold_left_app. reflexivity. Qed.

(** ** Operators that are shown well *)
Definition same_value (t : tree) (o : operator) : Prop :=
  forall (V : Type) (sum_of prod_of : list V -> V) meaning blocks x, value sum_of prod_of meaning t x = computes sum_of prod_of meaning blocks o x.
Definition simple (t : tree) : Prop := match t with Name _ | Prod _ | Sum _ => True | _ => False end.
Definition is_multiplication (o : operator) : bool := match o with Composite Multiplication _ => true | _ => false end.
Definition reads (o : operator) (t : tree) : Prop :=
  well_formed t /\ str o = Ok (print t) /\ same_value t o /\ is_sum t = is_addition o /\ is_mul t = is_multiplication o /\ (is_linear o = true -> simple t) /\ is_block_diagonal o = false.
Definition each (l : list operator) : result (list text) :=
  (fix each l := match l with [] => Ok [] | o :: l => t <- str o ;; ts <- each l ;; Ok (t :: ts) end) l.
Lemma each_cons o l : each (o :: l) = (t <- str o ;; ts <- each l ;; Ok (t :: ts)). Proof. reflexivity. Qed.
Lemma str_composite k l : str (Composite k l) = (texts <- each l ;; Ok (show k l texts)). Proof. reflexivity. Qed.
Lemma each_reads l ts : Forall2 reads l ts -> each l = Ok (map print ts).
Proof. induction 1 as [|o t l ts H _ IH]; [reflexivity|]. rewrite each_cons, IH. destruct H as (_ & -> & _). reflexivity. Qed.
Lemma protected_items l ts : Forall2 reads l ts -> map (fun p => protect (fst p) (snd p)) (combine l (map print ts)) = map item ts.
Proof.
  induction 1 as [|o t l ts H _ IH]; [reflexivity|]. cbn [map combine]. rewrite IH. f_equal. cbn [fst snd]. unfold protect, item. destruct H as (_ & _ & _ & -> & _ & _ & ->). rewrite orb_false_r. reflexivity.
Qed.
Lemma choose l : (forall o, In o l -> exists t, reads o t) -> exists ts, Forall2 reads l ts.
Proof.
  induction l as [|o l IH]; intros H; [exists []; constructor|]. destruct (H o (or_introl eq_refl)) as (t & Ht). destruct IH as (ts & Hts); [intros o' Ho'; apply H; right; exact Ho'|]. exists (t :: ts). constructor; assumption.
Qed.
Lemma forall2_facts l ts : Forall2 reads l ts -> length ts = length l /\ Forall well_formed ts.
Proof. induction 1 as [|o t l ts H _ (IH & IH2)]; [split; constructor|]. split; [cbn; congruence|]. constructor; [apply H|exact IH2]. Qed.
Lemma forall2_values l ts (V : Type) (sum_of prod_of : list V -> V) meaning blocks x : Forall2 reads l ts ->
  map (fun t => value sum_of prod_of meaning t x) ts = map (fun o => computes sum_of prod_of meaning blocks o x) l.
Proof. induction 1 as [|o t l ts H _ IH]; [reflexivity|]. cbn [map]. rewrite IH. f_equal. destruct H as (_ & _ & H & _). apply H. Qed.
Definition compose {V} sum_of prod_of meaning blocks (l : list operator) (x : V) : V := fold_right (fun o y => computes sum_of prod_of meaning blocks o y) x l.
Lemma computes_composition {V} sum_of prod_of meaning blocks l (x : V) : computes sum_of prod_of meaning blocks (Composite Composition l) x = compose sum_of prod_of meaning blocks l x.
Proof. induction l as [|o l IH]; [reflexivity|]. cbn [compose fold_right]. unfold compose in IH. rewrite <- IH. reflexivity. Qed.
Lemma linear_all k l : match k with Multiplication | BlockRow => False | _ => True end -> is_linear (Composite k l) = forallb is_linear l.
Proof. intros H. destruct k; try contradiction; induction l as [|o l IH]; try reflexivity; cbn [forallb]; rewrite <- IH; reflexivity. Qed.

Lemma print_nonempty t : well_formed t -> is_empty (print t) = false.
Proof. intros W. destruct (print_start t W) as (c & s & -> & _). reflexivity. Qed.
Lemma print_space t : well_formed t -> simple t -> contains (lit " ") (print t) = match t with Name _ => false | _ => true end.
Proof.
  intros W S. destruct t as [n|n a|l|t u|l|l]; try contradiction.
  - apply name_without; [exact W|reflexivity].
  - cbn [print]. apply separated_space, W.
  - rewrite print_sum. apply wf_sum in W. apply separated_space. rewrite map_length. apply W.
Qed.
Lemma function_text n a : arguments a -> contains (lit "...") (n ++ lit "(..., " ++ a ++ lit ")") = true /\ contains (lit "...,") (n ++ lit "(..., " ++ a ++ lit ")") = true.
Proof.
  intros _. split.
  - change (n ++ lit "(..., " ++ a ++ lit ")") with (n ++ lit "(" ++ lit "..." ++ (lit ", " ++ a ++ lit ")")). rewrite app_assoc. apply contains_app.
  - change (n ++ lit "(..., " ++ a ++ lit ")") with (n ++ lit "(" ++ lit "...," ++ (lit " " ++ a ++ lit ")")). rewrite app_assoc. apply contains_app.
Qed.

Lemma is_linear_atoms ns : map is_linear (map (fun n => Atom true (Ok n)) ns) = map (fun _ => true) ns.
Proof. rewrite map_map. reflexivity. Qed.
Lemma each_atoms ns l : each (map (fun n => Atom true (Ok n)) ns ++ l) = (ts <- each l ;; Ok (ns ++ ts)).
Proof. induction ns as [|n ns IH]; [cbn [map app]; destruct (each l); reflexivity|]. cbn [map app]. rewrite each_cons, IH. cbn [str rbind]. destruct (each l); reflexivity. Qed.
Lemma combine_atoms ns l ts : combine (map is_linear (map (fun n => Atom true (Ok n)) ns ++ l)) (ns ++ ts) = map (pair true) ns ++ combine (map is_linear l) ts.
Proof. induction ns as [|n ns IH]; [reflexivity|]. cbn [map app combine]. rewrite IH. reflexivity. Qed.
Lemma compose_atoms {V} sum_of prod_of meaning blocks ns l (x : V) :
  compose sum_of prod_of meaning blocks (map (fun n => Atom true (Ok n)) ns ++ l) x = fold_right meaning (compose sum_of prod_of meaning blocks l x) ns.
Proof. induction ns as [|n ns IH]; [reflexivity|]. cbn [map app]. unfold compose in *. cbn [fold_right]. rewrite IH. reflexivity. Qed.

Lemma chain_reads l : (forall o, In o l -> displayable o -> exists t, reads o t) -> chain displayable l ->
  exists t ts, well_formed t /\ each l = Ok ts /\ length ts = length l /\ show_composition (combine (map is_linear l) ts) = print t /\
    (forall (V : Type) (sum_of prod_of : list V -> V) meaning blocks x, value sum_of prod_of meaning t x = compose sum_of prod_of meaning blocks l x) /\
    (2 <= length l -> is_sum t = false /\ is_mul t = false /\ (forallb is_linear l = true -> simple t)).
Proof.
  intros Hd H. induction H as [o P|a l P H IH|o o' l P Lo Lo' H IH|ns L N|ns o' l L N Lo' H IH].
  - destruct (Hd o (or_introl eq_refl) P) as (t & W & E & V & _). exists t, [print t]. split; [exact W|]. split; [cbn [each]; unfold each; rewrite E; reflexivity|]. split; [reflexivity|]. split.
    { unfold show_composition. cbn. destruct (is_linear o); cbn; reflexivity. }
    split; [intros; unfold compose; cbn [fold_right]; apply V|]. cbn. lia.
  - destruct (IH (fun o Ho => Hd o (or_intror Ho))) as (u & ts & W & E & L & Sh & V & _). 
    assert (Q : exists t, (exists n, t = Name n \/ exists a, t = Fun n a) /\ well_formed t /\ a = Ok (print t) /\ print (App t u) = apply_nonlinear (print u) (print t) /\ same_value t (Atom false a)).
    { inversion P as [b n N Eb|n args N A Eb| | |]; subst.
      - exists (Name n). split; [eauto|]. split; [exact N|]. split; [reflexivity|]. split; [|intros ? ? ? ? ? ?; reflexivity]. unfold apply_nonlinear. rewrite (print_nonempty u W). cbn [print].
        rewrite (name_without n "."%char [("."%char); ("."%char)] N eq_refl : contains (lit "...") n = false). reflexivity.
      - exists (Fun n args). split; [eauto|]. split; [split; assumption|]. split; [reflexivity|]. split; [|intros ? ? ? ? ? ?; reflexivity]. unfold apply_nonlinear. rewrite (print_nonempty u W). cbn [print].
        destruct (function_text n args A) as (-> & ->). cbn [negb orb andb]. symmetry. apply replace_fun; assumption. }
    destruct Q as (t & Ht & Wt & -> & Pt & Vt). exists (App t u), (print t :: ts). split; [cbn [well_formed]; destruct Ht as (n & [->|(b & ->)]); auto|]. split; [rewrite each_cons, E; reflexivity|]. split; [cbn; congruence|]. split.
    { cbn [map is_linear combine]. unfold show_composition in *. cbn [rev]. rewrite (shown_nonlinear (rev (combine (map is_linear l) ts)) (print t) : fold_left apply_group _ [] = _). unfold shown. rewrite Sh. symmetry. exact Pt. }
    split; [intros; unfold compose in *; cbn [fold_right value]; rewrite (Vt _ sum_of prod_of meaning blocks), (V _ sum_of prod_of meaning blocks); reflexivity|].
    intros _. split; [reflexivity|]. split; [reflexivity|]. cbn. discriminate.
  - destruct (IH (fun o Ho => Hd o (or_intror Ho))) as (u & ts & W & E & L & Sh & V & _). destruct (Hd o (or_introl eq_refl) P) as (t & Wt & Et & Vt & _ & _ & St & _). specialize (St Lo).
    exists (App t u), (print t :: ts). split; [cbn [well_formed]; destruct t; try contradiction; auto|]. split; [rewrite each_cons, E, Et; reflexivity|]. split; [cbn in *; congruence|]. split.
    { destruct ts as [|t' ts]; [cbn in L; discriminate|]. change (map is_linear (o :: o' :: l)) with (is_linear o :: map is_linear (o' :: l)). rewrite Lo. unfold show_composition in *. cbn [combine rev].
      change [(true, print t)] with (map (pair true) [print t]). rewrite (shown_run _ [print t] ltac:(discriminate) : _ -> fold_left apply_group _ [] = _).
      2: { right. cbn [map combine rev]. rewrite Lo'. eauto. }
      unfold shown. rewrite Sh. unfold apply_group. cbn [fst snd rev app join length]. rewrite (print_nonempty u W), (print_space t Wt St). cbn [Nat.ltb Nat.leb orb].
      destruct t; try contradiction; unfold parenthesize; unlit; rewrite <- ?app_assoc; unlit; reflexivity. }
    split; [intros; unfold compose in *; cbn [fold_right value]; rewrite (Vt _ sum_of prod_of meaning blocks), (V _ sum_of prod_of meaning blocks); reflexivity|].
    intros _. split; [reflexivity|]. split; [reflexivity|]. cbn [forallb]. rewrite Lo'. cbn. rewrite andb_false_r. discriminate.
  - exists (Prod ns), ns. split; [split; assumption|]. split; [rewrite <- (app_nil_r (map _ ns)), each_atoms; cbn; rewrite app_nil_r; reflexivity|]. split; [rewrite map_length; reflexivity|]. split.
    { rewrite <- (app_nil_r (map _ ns)). rewrite <- (app_nil_r ns) at 2. rewrite combine_atoms. cbn [map combine]. rewrite app_nil_r. unfold show_composition. rewrite <- map_rev. 
      transitivity (shown ([] ++ map (pair true) (rev ns))); [reflexivity|]. rewrite shown_run; [|intros X; apply (f_equal (@List.length _)) in X; rewrite rev_length in X; cbn in X; lia|auto].
      unfold apply_group, shown. cbn [fst snd groups fold_left is_empty]. rewrite rev_involutive, join_separated. reflexivity. }
    split; [intros; rewrite <- (app_nil_r (map _ ns)), compose_atoms; reflexivity|]. intros _. split; [reflexivity|]. split; [reflexivity|]. intros _. exact I.
  - destruct (IH (fun o Ho => Hd o (in_or_app _ _ _ (or_intror Ho)))) as (u & ts & W & E & Lt & Sh & V & _).
    exists (App (Prod ns) u), (ns ++ ts). split; [split; [split; assumption|exact W]|]. split; [rewrite each_atoms, E; reflexivity|]. split; [rewrite !app_length, map_length; congruence|]. split.
    { rewrite combine_atoms. destruct ts as [|t' ts]; [cbn in Lt; discriminate|]. unfold show_composition in *. rewrite rev_app_distr, <- map_rev.
      rewrite (shown_run _ (rev ns) : _ -> _ -> fold_left apply_group (groups (_ ++ map (pair true) (rev ns))) [] = _); [|intros X; apply (f_equal (@List.length _)) in X; rewrite rev_length in X; cbn in X; lia|].
      2: { right. cbn [map combine rev]. rewrite Lo'. eauto. }
      unfold shown. rewrite Sh. unfold apply_group. cbn [fst snd]. rewrite rev_involutive, rev_length, (print_nonempty u W). assert (X : Nat.ltb 1 (length ns) = true) by (apply Nat.ltb_lt; exact L). rewrite X. cbn [orb].
      rewrite join_separated. cbn [print]. unfold parenthesize. unlit. rewrite <- ?app_assoc. unlit. reflexivity. }
    split; [intros; rewrite compose_atoms; cbn [value]; rewrite (V _ sum_of prod_of meaning blocks); reflexivity|].
    intros _. split; [reflexivity|]. split; [reflexivity|]. rewrite forallb_app. cbn [forallb]. rewrite Lo'. cbn [andb]. rewrite andb_false_r. discriminate.
Qed.

Fixpoint osize (o : operator) : nat := match o with Atom _ _ => 1 | Composite _ l => S ((fix sizes l := match l with [] => 0 | o :: l => osize o + sizes l end) l) end.
Lemma osize_in o l : In o l -> osize o <= (fix sizes l := match l with [] => 0 | o :: l => osize o + sizes l end) l.
Proof. induction l as [|u l IH]; intros H; [destruct H|]. destruct H as [->|H]; [lia|]. specialize (IH H). lia. Qed.

Lemma displayable_reads o : displayable o -> exists t, reads o t.
Proof.
  assert (key : forall k o, osize o < k -> displayable o -> exists t, reads o t).
  2: { intros H. exact (key (S (osize o)) o (le_n _) H). }
  induction k as [|k IH]; intros o' Hk H; [lia|].
  assert (IHl : forall kk l, o' = Composite kk l -> forall x, In x l -> displayable x -> exists t, reads x t).
  { intros kk l -> x Hx Dx. apply IH; [|exact Dx]. apply osize_in in Hx. cbn [osize] in Hk. lia. }
  destruct H as [b n N|n a N A|l L F|l L F M|l L C].
  - exists (Name n). split; [exact N|]. split; [reflexivity|]. split; [intros ? ? ? ? ? ?; reflexivity|]. repeat split.
  - exists (Fun n a). split; [split; assumption|]. split; [reflexivity|]. split; [intros ? ? ? ? ? ?; reflexivity|]. split; [reflexivity|]. split; [reflexivity|]. split; [discriminate|reflexivity].
  - rewrite Forall_forall in F. destruct (choose l) as (ts & H2); [intros x Hx; exact (IHl Addition l eq_refl x Hx (F x Hx))|]. destruct (forall2_facts l ts H2) as (Lt & Wt). exists (Sum ts).
    split; [apply wf_sum; split; [rewrite Lt; exact L|exact Wt]|]. split; [rewrite str_composite, (each_reads l ts H2); cbn [rbind show]; rewrite (protected_items l ts H2), join_separated; reflexivity|].
    split; [intros V s p m b x; cbn [value computes]; rewrite (forall2_values l ts V s p m b x H2); reflexivity|]. split; [reflexivity|]. split; [reflexivity|]. split; [intros _; exact I|reflexivity].
  - rewrite Forall_forall in F. destruct (choose l) as (ts & H2); [intros x Hx; exact (IHl Multiplication l eq_refl x Hx (F x Hx))|]. destruct (forall2_facts l ts H2) as (Lt & Wt). exists (Mul ts).
    split. { apply wf_mul. split; [rewrite Lt; exact L|]. split; [exact Wt|]. clear -H2 M. induction H2 as [|o t l ts R _ IH]; constructor; inversion M; subst; [|apply IH; assumption]. destruct R as (_ & _ & _ & _ & -> & _). destruct o as [|[]]; cbn; auto; contradiction. }
    split; [rewrite str_composite, (each_reads l ts H2); cbn [rbind show]; rewrite (protected_items l ts H2), join_separated; reflexivity|].
    split; [intros V s p m b x; cbn [value computes]; rewrite (forall2_values l ts V s p m b x H2); reflexivity|]. split; [reflexivity|]. split; [reflexivity|]. split; [discriminate|reflexivity].
  - destruct (chain_reads l (IHl Composition l eq_refl) C) as (t & ts & W & E & Lt & Sh & V & X). destruct (X L) as (X1 & X2 & X3). exists t. split; [exact W|].
    split; [rewrite str_composite, E; cbn [rbind show]; rewrite Sh; reflexivity|]. split; [intros V' s p m b x; rewrite computes_composition; apply V|]. split; [exact X1|]. split; [exact X2|]. split; [|reflexivity].
    intros Y. apply X3. rewrite linear_all in Y; [exact Y|exact I].
Qed.

(** ** Cases *)
Definition lin (s : string) : operator := Atom true (Ok (lit s)).
Definition nonlin (s : string) : operator := Atom false (Ok (lit s)).
Lemma name_lit s : match s with EmptyString => false | _ => forallb name_char (lit s) end = true -> name (lit s).
Proof. intros H. destruct s; [discriminate|]. split; [discriminate|exact H]. Qed.
(** 2 x for 'c', x for the others, on integers *)
Definition doubling (t : text) (x : Z) : Z := if list_eq_dec ascii_dec t (lit "c") then (2 * x)%Z else if list_eq_dec ascii_dec t (lit "d") then (x + 1)%Z else x.
Definition zsum (l : list Z) : Z := fold_right Z.add 0%Z l.
Definition zprod (l : list Z) : Z := fold_right Z.mul 1%Z l.
Definition zvalue (o : operator) : Z -> Z := computes zsum zprod doubling (fun _ _ x => x) o.
Lemma square_raises k l : In square l -> exists e, str (Composite k l) = Raise e.
Proof.
  intros H. rewrite str_composite. assert (E : exists e, each l = Raise e); [|destruct E as (e & ->); exists e; reflexivity].
  induction l as [|o l IH]; [destruct H|]. rewrite each_cons. destruct H as [->|H]; [exists TypeError; reflexivity|]. destruct (str o); [|eexists; reflexivity]. destruct (IH H) as (e & ->). exists e. reflexivity.
Qed.
Lemma elided k f h l l' t u : 0 < length l -> 0 < length l' -> k = BlockColumn \/ k = BlockRow -> str f = Ok t -> str h = Ok u -> (exists ts, each l = Ok ts) -> (exists ts, each l' = Ok ts) ->
  str (Composite k (f :: l ++ [h])) = str (Composite k (f :: l' ++ [h])) /\ exists s, str (Composite k (f :: l ++ [h])) = Ok s.
Proof.
  intros L L' K Ef Eh (ts & E) (ts' & E').
  assert (A : forall l ts, each l = Ok ts -> each (f :: l ++ [h]) = Ok (t :: ts ++ [u]) /\ length ts = length l).
  { clear -Ef Eh. intros l ts E. rewrite each_cons, Ef. cbn [rbind].
    assert (B : each (l ++ [h]) = Ok (ts ++ [u]) /\ length ts = length l).
    { revert ts E. induction l as [|o l IH]; intros ts E; [injection E as <-; split; [cbn [app]; rewrite each_cons, Eh; reflexivity|reflexivity]|]. cbn [app]. rewrite each_cons in E |- *. destruct (str o) as [s|]; [|discriminate]. cbn [rbind] in E |- *.
      destruct (each l) as [ss|]; [|discriminate]. injection E as <-. destruct (IH ss eq_refl) as (-> & Q). cbn [rbind length app]. split; [reflexivity|congruence]. }
    destruct B as (-> & B). split; [reflexivity|exact B]. }
  destruct (A l ts E) as (El & Ll), (A l' ts' E') as (El' & Ll'). rewrite !str_composite, El, El'. cbn [rbind].
  assert (X : forall g : text -> text, elide (map g (t :: ts ++ [u])) = [g t; lit "..."; g u] /\ elide (map g (t :: ts' ++ [u])) = [g t; lit "..."; g u]).
  { clear -L L' Ll Ll'. assert (Y : forall ts (g : text -> text), 0 < length ts -> elide (map g (t :: ts ++ [u])) = [g t; lit "..."; g u]).
    { intros ss g Hs. unfold elide. rewrite map_length. cbn [length]. rewrite app_length. cbn [length]. assert (Z : Nat.ltb 2 (S (length ss + 1)) = true) by (apply Nat.ltb_lt; lia). rewrite Z. cbn [map hd].
      rewrite map_app. cbn [map]. change (g t :: map g ss ++ [g u]) with ((g t :: map g ss) ++ [g u]). rewrite last_last. reflexivity. }
    intros g. split; apply Y; lia. }
  destruct K as [-> | ->]; unfold show.
  - destruct (X (fun s => lit "[" ++ s ++ lit "]")) as (X1 & X2). split; [|eauto]. f_equal. f_equal. f_equal. f_equal. transitivity [lit "[" ++ t ++ lit "]"; lit "..."; lit "[" ++ u ++ lit "]"]; [exact X1|symmetry; exact X2].
  - destruct (X (fun s => s)) as (X1 & X2). rewrite map_id in X1, X2. rewrite X1, X2. split; [reflexivity|eauto].
Qed.
