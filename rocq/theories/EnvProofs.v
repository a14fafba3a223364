(** Proofs about the environment variables. *)
From Coq Require Import Ascii String.
From Verif Require Import Base EnvModel EnvSpec.
Set Implicit Arguments. Unset Strict Implicit.
Local Open Scope Z_scope.

(** ** Integers *)
Lemma is_digit_iff : forall c, is_digit c = true <-> decimal_digit c.
Proof. intros c. unfold is_digit, decimal_digit. rewrite Bool.andb_true_iff, !Nat.leb_le. reflexivity. Qed.
Definition reads (acc : Z) (ds : text) : Z := fold_left (fun n c => 10 * n + (Z.of_nat (nat_of_ascii c) - 48)) ds acc.
Lemma grouped_cons : forall c t ds, decimal_digit c -> grouped t ds -> grouped (c :: t) (c :: ds).
Proof.
  intros c t ds D G. inversion G as [ds' N F|ds' t' ds'' N F G']; subst.
  - apply One; [discriminate|now constructor].
  - apply (@More (c :: ds') t' ds''); [discriminate|now constructor|assumption].
Qed.
Lemma parse_sound : forall t b acc z, parse_digits b acc t = Some z ->
  (b = true /\ t = [] /\ z = acc) \/ (exists t' ds, b = true /\ t = "_"%char :: t' /\ grouped t' ds /\ z = reads acc ds) \/
  exists ds, grouped t ds /\ z = reads acc ds.
Proof.
  induction t as [|c t IH]; intros b acc z; cbn [parse_digits].
  - destruct b; [|discriminate]. intros H. injection H as <-. now left.
  - destruct (is_digit c) eqn:D.
    + apply is_digit_iff in D. intros H. right. right. apply IH in H. destruct H as [(_ & -> & ->)|[(t' & ds & _ & -> & G & ->)|(ds & G & ->)]].
      * exists [c]. split; [|reflexivity]. apply One; [discriminate|now constructor].
      * exists (c :: ds). split; [|reflexivity]. apply (@More [c] t' ds); [discriminate|now constructor|assumption].
      * exists (c :: ds). split; [|reflexivity]. now apply grouped_cons.
    + destruct (ascii_dec c "_"%char) as [->|]; [|discriminate]. destruct b; [|discriminate]. intros H. right. left. apply IH in H.
      destruct H as [(E & _)|[(t' & ds & E & _)|(ds & G & ->)]]; [discriminate E|discriminate E|]. now exists t, ds.
Qed.
Lemma parse_prefix : forall ds b acc t, ds <> [] -> Forall decimal_digit ds -> parse_digits b acc (ds ++ t) = parse_digits true (reads acc ds) t.
Proof.
  induction ds as [|c ds IH]; intros b acc t N F; [now elim N|]. inversion F as [|? ? D F']; subst. cbn [app parse_digits].
  apply is_digit_iff in D. rewrite D. destruct ds as [|d ds]; [reflexivity|]. rewrite IH; [reflexivity|discriminate|assumption].
Qed.
Lemma parse_complete : forall t ds, grouped t ds -> forall b acc, parse_digits b acc t = Some (reads acc ds).
Proof.
  intros t ds G. induction G as [ds N F|ds t ds' N F G IH]; intros b acc.
  - rewrite <- (app_nil_r ds) at 1. now rewrite parse_prefix.
  - rewrite parse_prefix by assumption. cbn [parse_digits]. change (is_digit "_") with false. cbn [ascii_dec]. destruct (ascii_dec "_" "_"); [|congruence].
    rewrite IH. unfold reads. now rewrite fold_left_app.
Qed.
Lemma grouped_first : forall t ds, grouped t ds -> exists c t', t = c :: t' /\ decimal_digit c.
Proof.
  intros t ds G. destruct G as [ds N F|ds t ds' N F _]; (destruct ds as [|c ds]; [now elim N|]); inversion F; subst.
  - now exists c, ds.
  - now exists c, (ds ++ "_"%char :: t).
Qed.
Lemma parse_int_iff : forall t z, parse_int t = Some z <-> integer t z.
Proof.
  assert (R : forall t z, parse_digits false 0 t = Some z <-> exists ds, grouped t ds /\ z = number ds).
  { intros t z. split.
    - intros H. apply parse_sound in H. destruct H as [(E & _)|[(t' & ds & E & _)|(ds & G & ->)]]; [discriminate E|discriminate E|]. now exists ds.
    - intros (ds & G & ->). now apply parse_complete. }
  intros t z. unfold parse_int. split.
  - destruct t as [|c t]; [discriminate|]. destruct (ascii_dec c "-") as [->|Nm]; [|destruct (ascii_dec c "+") as [->|Np]].
    + destruct (parse_digits false 0 t) as [n|] eqn:E; [|discriminate]. apply R in E. destruct E as (ds & G & ->). intros H. injection H as <-. now constructor.
    + intros H. apply R in H. destruct H as (ds & G & ->). now constructor.
    + intros H. apply R in H. destruct H as (ds & G & ->). now constructor.
  - intros [t' ds G|t' ds G|t' ds G].
    + destruct (grouped_first G) as (c & t'' & -> & D). destruct (ascii_dec c "-") as [->|]; [exfalso; destruct D as [D _]; vm_compute in D; lia|].
      destruct (ascii_dec c "+") as [->|]; [exfalso; destruct D as [D _]; vm_compute in D; lia|]. apply R. now exists ds.
    + destruct (ascii_dec "+" "-") as [E|]; [discriminate E|]. destruct (ascii_dec "+" "+"); [|congruence]. apply R. now exists ds.
    + destruct (ascii_dec "-" "-"); [|congruence]. assert (E : parse_digits false 0 t' = Some (number ds)) by (apply R; now exists ds).
      rewrite E. reflexivity.
Qed.

(** ** Spaces *)
Lemma is_space_iff : forall c, is_space c = true <-> space c.
Proof. intros c. unfold is_space, space. rewrite Bool.orb_true_iff, !Bool.andb_true_iff, !Nat.leb_le. reflexivity. Qed.
Lemma lstrip_spaces : forall a t, Forall space a -> lstrip (a ++ t) = lstrip t.
Proof.
  induction a as [|c a IH]; intros t F; [reflexivity|]. inversion F as [|? ? H F']; subst. cbn [app lstrip]. apply is_space_iff in H. rewrite H. now apply IH.
Qed.
Lemma lstrip_id : forall t, (forall c t', t = c :: t' -> ~ space c) -> lstrip t = t.
Proof.
  intros [|c t] H; [reflexivity|]. cbn [lstrip]. destruct (is_space c) eqn:E; [|reflexivity]. apply is_space_iff in E. now apply (H c t) in E.
Qed.
Lemma strip_trimmed : forall a t b, Forall space a -> Forall space b -> trimmed t -> strip (a ++ t ++ b) = t.
Proof.
  intros a t b A B (N & F & L). unfold strip. rewrite lstrip_spaces by assumption. rewrite (@lstrip_id (t ++ b)).
  - rewrite rev_app_distr, lstrip_spaces by now apply Forall_rev. rewrite lstrip_id; [apply rev_involutive|].
    intros c t' E. apply (L c (rev t')). rewrite <- (rev_involutive t), E. reflexivity.
  - intros c t' E. destruct t as [|d t]; [now elim N|]. cbn [app] in E. injection E as -> _. now apply (F c t).
Qed.
Lemma strip_spaces : forall a, Forall space a -> strip a = [].
Proof. intros a A. unfold strip. rewrite <- (app_nil_r a), lstrip_spaces by assumption. reflexivity. Qed.
Lemma strip_id : forall t, trimmed t -> strip t = t.
Proof. intros t T. rewrite <- (app_nil_r t) at 1. now apply (@strip_trimmed [] t []). Qed.
(** Every text is made of spaces, or of a text without spaces around it. *)
Lemma lstrip_split : forall t, exists a, Forall space a /\ t = a ++ lstrip t /\ forall c t', lstrip t = c :: t' -> ~ space c.
Proof.
  induction t as [|c t IH]; cbn [lstrip]; [exists []; split; [constructor|]; split; [reflexivity|discriminate]|].
  destruct (is_space c) eqn:E.
  - destruct IH as (a & A & E' & H). exists (c :: a). split; [constructor; [now apply is_space_iff|assumption]|]. split; [cbn; now rewrite <- E'|assumption].
  - exists []. split; [constructor|]. split; [reflexivity|]. intros d t' H. injection H as <- _. intros S. apply is_space_iff in S. congruence.
Qed.
Lemma text_split : forall t, Forall space t \/ exists a t' b, Forall space a /\ Forall space b /\ trimmed t' /\ t = a ++ t' ++ b.
Proof.
  intros t. destruct (lstrip_split t) as (a & A & E & H). destruct (lstrip_split (rev (lstrip t))) as (b & B & E' & H').
  destruct (rev (lstrip (rev (lstrip t)))) as [|c r] eqn:Q.
  - left. apply (f_equal (@rev _)) in Q. rewrite rev_involutive in Q. rewrite Q, app_nil_r in E'. rewrite E. apply Forall_app. split; [assumption|].
    rewrite <- (rev_involutive (lstrip t)), E'. now apply Forall_rev.
  - right. exists a, (c :: r), (rev b). split; [assumption|]. split; [now apply Forall_rev|].
    assert (D : lstrip t = (c :: r) ++ rev b) by (rewrite <- Q, <- rev_app_distr, <- E'; symmetry; apply rev_involutive).
    split; [|now rewrite <- D]. split; [discriminate|]. split.
    + intros d t' K. injection K as -> ->. apply (H d (t' ++ rev b)). now rewrite D.
    + intros d t' K. apply (H' d (rev t')). rewrite <- (rev_involutive (lstrip (rev (lstrip t)))), Q, K, rev_app_distr. reflexivity.
Qed.
Lemma grouped_space : forall t ds, grouped t ds -> forall c, In c t -> ~ space c.
Proof.
  assert (D : forall c, decimal_digit c -> ~ space c) by (intros c [H K] [S|S]; lia).
  intros t ds G. induction G as [ds N F|ds t ds' N F G IH]; intros c I.
  - rewrite Forall_forall in F. apply D. now apply F.
  - apply in_app_iff in I. rewrite Forall_forall in F. destruct I as [I|[<-|I]]; [apply D; now apply F| |now apply IH].
    intros [S|S]; vm_compute in S; lia.
Qed.
Lemma integer_space : forall t z, integer t z -> forall c, In c t -> ~ space c.
Proof.
  intros t z [t' ds G|t' ds G|t' ds G] c I; [now apply (grouped_space G)| |]; (destruct I as [<-|I]; [|now apply (grouped_space G)]); intros [S|S]; vm_compute in S; lia.
Qed.
Lemma integer_trimmed : forall t z, integer t z -> trimmed t.
Proof.
  intros t z H. split.
  - intros ->. apply parse_int_iff in H. discriminate H.
  - assert (N := integer_space H). split; intros c t' ->; apply N; [now left|]. apply in_app_iff. right. now left.
Qed.
Lemma python_int_spaces : forall a t b, Forall space a -> Forall space b -> trimmed t -> python_int (a ++ t ++ b) = parse_int t.
Proof. intros a t b A B T. unfold python_int. now rewrite strip_trimmed. Qed.

(** ** Settings *)
Lemma getenv_cases : forall {A} (parse : text -> option A) default value,
  (forall t, value = Some t -> Forall space t) -> getenv parse default value = (default, false).
Proof. intros A parse default [t|] H; [|reflexivity]. unfold getenv. now rewrite strip_spaces by now apply H. Qed.
Lemma getenv_value : forall {A} (parse : text -> option A) default a t b, Forall space a -> Forall space b -> trimmed t ->
  getenv parse default (Some (a ++ t ++ b)) = match parse t with Some x => (x, false) | None => (default, true) end.
Proof.
  intros A parse default a t b Ha Hb T. unfold getenv. rewrite strip_trimmed by assumption. destruct t as [|c t]; [now destruct T|reflexivity].
Qed.

(** ** Threads *)
Section Threads.
Context (cpus : Z).
Lemma mkl_presence : forall p s, mkl s = None <-> mkl (fst (exec cpus p s)) = None.
Proof.
  induction p as [| |o|n| |p IH|p IHp q IHq|n p IH]; intros s; cbn [exec].
  1,2,3,5: reflexivity.
  - cbn. destruct (mkl s); cbn; split; congruence.
  - apply IH.
  - destruct (exec cpus p s) as [s' [e|]] eqn:E; [|rewrite <- IHq]; rewrite (IHp s), E; reflexivity.
  - destruct (match n with Some n => _ | None => _ end) as [k|]; [|reflexivity]. cbv zeta. destruct (k <? 1); [cbn; destruct (mkl s); cbn; split; congruence|].
    assert (H := IH (open_pool k (set_omp (Some (lit "1")) (set_mkl 1 s)))).
    destruct (exec cpus p _) as [s3 [e|]]; cbn [fst] in H.
    + cbn [fst]. rewrite <- H. cbn. destruct (mkl s); cbn; split; congruence.
    + assert (K : mkl s = None <-> mkl s3 = None) by (rewrite <- H; cbn; destruct (mkl s); cbn; split; congruence).
      cbn [omp set_mkl]. destruct (omp s); destruct (mkl s) as [k'|] eqn:M; cbn; try destruct (omp s3); cbn; rewrite ?M; destruct (mkl s3); cbn; try tauto;
        split; intros Q; try discriminate Q; try (exfalso; destruct K as [K1 K2]; discriminate (K2 eq_refl)); try (exfalso; destruct K as [K1 K2]; discriminate (K1 eq_refl)); reflexivity.
Qed.
Lemma restored : forall n p s s', exec cpus (Threads n p) s = (s', None) -> omp s' = omp s /\ mkl s' = mkl s.
Proof.
  intros n p s s'. cbn [exec]. destruct (match n with Some n => _ | None => _ end) as [k|]; [|discriminate]. cbv zeta. destruct (k <? 1); [discriminate|].
  assert (H := mkl_presence p (open_pool k (set_omp (Some (lit "1")) (set_mkl 1 s)))).
  destruct (exec cpus p _) as [s3 [e|]]; [discriminate|]. cbn [fst] in H.
  assert (M : mkl (match mkl s with Some k0 => set_mkl k0 (close_pool (opened (set_omp (Some (lit "1")) (set_mkl 1 s))) s3)
                   | None => close_pool (opened (set_omp (Some (lit "1")) (set_mkl 1 s))) s3 end) = mkl s).
  { cbn in H. destruct (mkl s) as [k'|]; cbn in H |- *.
    - destruct (mkl s3); [reflexivity|]. destruct H as [_ H]. discriminate (H eq_refl).
    - now apply H. }
  cbn [omp set_mkl]. destruct (omp s) as [t|].
  - intros Q. injection Q as <-. split; [reflexivity|]. exact M.
  - destruct (omp (match mkl s with Some _ => _ | None => _ end)); [|discriminate]. intros Q. injection Q as <-. split; [reflexivity|]. exact M.
Qed.
Lemma opened_grows : forall p s, (opened s <= opened (fst (exec cpus p s)))%nat.
Proof.
  induction p as [| |o|n| |p IH|p IHp q IHq|n p IH]; intros s; cbn [exec]; try (cbn; lia).
  - apply IH.
  - specialize (IHp s). destruct (exec cpus p s) as [s' [e|]]; cbn [fst] in *; [assumption|]. specialize (IHq s'). lia.
  - destruct (match n with Some n => _ | None => _ end) as [k|]; [|cbn; lia]. cbv zeta. destruct (k <? 1); [cbn; lia|].
    specialize (IH (open_pool k (set_omp (Some (lit "1")) (set_mkl 1 s)))). cbn [opened open_pool set_omp set_mkl] in IH.
    destruct (exec cpus p _) as [s3 [e|]]; cbn [fst] in *; [lia|].
    cbn [omp set_mkl]. destruct (omp s); destruct (mkl s); cbn; try destruct (omp s3); cbn; lia.
Qed.
Lemma coherent_kept : forall p s, coherent s -> coherent (fst (exec cpus p s)).
Proof.
  induction p as [| |o|n| |p IH|p IHp q IHq|n p IH]; intros s C; cbn [exec]; try exact C.
  - now apply IH.
  - specialize (IHp s C). destruct (exec cpus p s) as [s' [e|]]; cbn [fst] in *; [assumption|]. now apply IHq.
  - destruct (match n with Some n => _ | None => _ end) as [k|]; [|exact C]. cbv zeta. destruct (k <? 1); [exact C|].
    assert (C' : coherent (open_pool k (set_omp (Some (lit "1")) (set_mkl 1 s)))).
    { intros i [<-|I]; cbn; [lia|]. apply Nat.lt_lt_succ_r. exact (C i I). }
    apply IH in C'. destruct (exec cpus p _) as [s3 [e|]]; cbn [fst] in *; [assumption|].
    assert (F : forall id i, In i (filter (fun i => negb (Nat.eqb i id)) (live s3)) -> (i < opened s3)%nat)
      by (intros id i I; apply filter_In in I; now apply C').
    cbn [omp set_mkl]. destruct (omp s); destruct (mkl s); cbn; try destruct (omp s3); cbn; intros i I; cbn in I |- *; apply (F _ _ I).
Qed.
Lemma pools_closed : forall p s s', catches_nothing p -> coherent s -> exec cpus p s = (s', None) -> live s' = live s.
Proof.
  induction p as [| |o|n| |p IH|p IHp q IHq|n p IH]; intros s s' N C H; cbn [exec] in H; try (injection H as <-; reflexivity).
  - destruct N.
  - destruct N as [Np Nq]. assert (Cp := @coherent_kept p s C). destruct (exec cpus p s) as [s1 [e|]] eqn:E; [discriminate H|].
    rewrite (IHq s1 s' Nq Cp H). now apply (IHp s s1).
  - destruct (match n with Some n => _ | None => _ end) as [k|]; [|discriminate H]. cbv zeta in H. destruct (k <? 1); [discriminate H|].
    assert (C' : coherent (open_pool k (set_omp (Some (lit "1")) (set_mkl 1 s)))).
    { intros i [<-|I]; cbn; [lia|]. apply Nat.lt_lt_succ_r. exact (C i I). }
    destruct (exec cpus p (open_pool k (set_omp (Some (lit "1")) (set_mkl 1 s)))) as [s3 [e|]] eqn:E; [discriminate H|].
    apply (IH _ _ N C') in E. cbn in E.
    assert (L : filter (fun i => negb (Nat.eqb i (opened s))) (live s3) = live s).
    { rewrite E. cbn [filter]. rewrite Nat.eqb_refl. cbn [negb]. clear - C. unfold coherent in C. induction (live s) as [|i l IH]; [reflexivity|].
      cbn [filter]. destruct (Nat.eqb_spec i (opened s)) as [->|]; cbn [negb].
      - exfalso. specialize (C (opened s) (or_introl eq_refl)). lia.
      - f_equal. apply IH. intros j J. apply C. now right. }
    cbn [omp set_mkl] in H. destruct (omp s); destruct (mkl s); cbn in H; try destruct (omp s3); try discriminate H; injection H as <-; exact L.
Qed.
Lemma log_grows : forall p s, exists l, log (fst (exec cpus p s)) = log s ++ l.
Proof.
  induction p as [| |o|n| |p IH|p IHp q IHq|n p IH]; intros s; cbn [exec]; try (exists []; cbn; now rewrite app_nil_r).
  - now exists [Saw (omp s) (mkl s)].
  - apply IH.
  - destruct (IHp s) as (l & E). destruct (exec cpus p s) as [s' [e|]]; cbn [fst] in *; [now exists l|].
    destruct (IHq s') as (l' & E'). exists (l ++ l'). now rewrite app_assoc, <- E.
  - destruct (match n with Some n => _ | None => _ end) as [k|]; [|exists []; cbn; now rewrite app_nil_r]. cbv zeta.
    destruct (k <? 1); [exists []; cbn; now rewrite app_nil_r|].
    destruct (IH (open_pool k (set_omp (Some (lit "1")) (set_mkl 1 s)))) as (l & E). cbn in E. rewrite <- app_assoc in E.
    exists (Pool k :: l). destruct (exec cpus p _) as [s3 [e|]]; cbn [fst] in *; [exact E|].
    cbn [omp set_mkl]. destruct (omp s); destruct (mkl s); cbn; try destruct (omp s3); exact E.
Qed.
Lemma pool_size : forall n p s k, match n with Some m => Ok m | None => omp_num_threads cpus s end = Ok k ->
  (1 <= k -> exists rest, log (fst (exec cpus (Threads n p) s)) = log s ++ Pool k :: rest) /\
  (k < 1 -> snd (exec cpus (Threads n p) s) = Some ValueError).
Proof.
  intros n p s k E. cbn [exec]. rewrite E. cbv zeta. split; intros K; (destruct (Z.ltb_spec k 1); [|try lia]); [lia| |reflexivity].
  destruct (log_grows p (open_pool k (set_omp (Some (lit "1")) (set_mkl 1 s)))) as (l & B). exists l. cbn in B. rewrite <- app_assoc in B.
  destruct (exec cpus p _) as [s3 [e|]]; cbn [fst] in *; [exact B|].
  cbn [omp set_mkl]. destruct (omp s); destruct (mkl s); cbn; try destruct (omp s3); exact B.
Qed.
Definition one_thread (s : world) : Prop := omp s = Some (lit "1") /\ forall k, mkl s = Some k -> k = 1.
Definition seen_one (e : event) : Prop := match e with Saw o k => o = Some (lit "1") /\ (forall n, k = Some n -> n = 1) | Pool _ => True end.
Definition size_one (e : event) : Prop := match e with Saw _ _ => True | Pool n => n = 1 end.
Lemma one_inside : forall p s, respectful p -> one_thread s ->
  one_thread (fst (exec cpus p s)) /\ exists l, log (fst (exec cpus p s)) = log s ++ l /\ Forall seen_one l /\ (default_sizes p -> Forall size_one l).
Proof.
  induction p as [| |o|n| |p IH|p IHp q IHq|n p IH]; intros s R O; cbn [exec].
  - split; [exact O|]. exists []. rewrite app_nil_r. now repeat split.
  - split; [exact O|]. exists [Saw (omp s) (mkl s)]. split; [reflexivity|]. split; [|intros _; now repeat constructor]. constructor; [exact O|constructor].
  - destruct R.
  - destruct R.
  - split; [exact O|]. exists []. rewrite app_nil_r. now repeat split.
  - cbn [fst]. destruct (IH s R O) as (A & l & B & D & F). split; [exact A|]. exists l. now repeat split.
  - destruct R as [Rp Rq]. destruct (IHp s Rp O) as (A & l & B & D & F). destruct (exec cpus p s) as [s' [e|]]; cbn [fst] in *.
    + split; [exact A|]. exists l. split; [assumption|]. split; [assumption|]. intros [Q _]. now apply F.
    + destruct (IHq s' Rq A) as (A' & l' & B' & D' & F'). split; [exact A'|]. exists (l ++ l'). rewrite app_assoc, <- B. split; [assumption|].
      split; [apply Forall_app; now split|]. intros [Q Q']. apply Forall_app. split; [now apply F|now apply F'].
  - assert (K : match n with Some n => Ok n | None => omp_num_threads cpus s end = Ok (match n with Some n => n | None => 1 end)).
    { destruct n; [reflexivity|]. unfold omp_num_threads. rewrite (proj1 O). reflexivity. }
    rewrite K. cbv zeta. set (k := match n with Some n => n | None => 1 end).
    assert (O2 : one_thread (set_omp (Some (lit "1")) (set_mkl 1 s))).
    { split; [reflexivity|]. cbn. intros m. destruct (mkl s); cbn; [|discriminate]. intros Q. now injection Q. }
    destruct (k <? 1); [split; [exact O2|]; exists []; cbn; rewrite app_nil_r; now repeat split|].
    destruct (IH (open_pool k (set_omp (Some (lit "1")) (set_mkl 1 s))) R O2) as (A & l & B & D & F).
    assert (F2 : default_sizes (Threads n p) -> Forall size_one (Pool k :: l)).
    { intros [Q Q']. constructor; [subst k; rewrite Q; reflexivity|now apply F]. }
    destruct (exec cpus p _) as [s3 [e|]]; cbn [fst] in *.
    + split; [exact A|]. exists (Pool k :: l). cbn in B. rewrite <- app_assoc in B. split; [exact B|]. split; [now constructor|exact F2].
    + cbn [omp set_mkl]. rewrite (proj1 O). cbn [fst]. split.
      * split; [reflexivity|]. cbn. destruct O as [_ Ok]. destruct A as [_ Ak]. destruct (mkl s) as [m|]; cbn.
        -- intros m' Q. destruct (mkl s3); [|discriminate Q]. cbn in Q. injection Q as <-. now apply Ok.
        -- exact Ak.
      * exists (Pool k :: l). cbn in B. rewrite <- app_assoc in B. split; [destruct (mkl s); exact B|]. split; [now constructor|exact F2].
Qed.
Lemma starts_one : forall n p s, respectful p -> exists l, log (fst (exec cpus (Threads n p) s)) = log s ++ l /\ Forall seen_one l /\
  (default_sizes p -> Forall size_one (tl l)).
Proof.
  intros n p s R. cbn [exec]. destruct (match n with Some n => _ | None => _ end) as [k|]; [|exists []; rewrite app_nil_r; split; [reflexivity|split; [constructor|intros _; constructor]]].
  cbv zeta. destruct (k <? 1); [exists []; cbn; rewrite app_nil_r; split; [reflexivity|split; [constructor|intros _; constructor]]|].
  assert (O2 : one_thread (open_pool k (set_omp (Some (lit "1")) (set_mkl 1 s)))).
  { split; [reflexivity|]. cbn. intros m. destruct (mkl s); cbn; [|discriminate]. intros Q. now injection Q. }
  destruct (one_inside R O2) as (A & l & B & D & F). destruct (exec cpus p _) as [s3 [e|]]; cbn [fst] in *;
    exists (Pool k :: l); cbn in B; rewrite <- app_assoc in B; (split; [|split; [now constructor|exact F]]); [exact B|].
  cbn [omp set_mkl]. destruct (omp s); destruct (mkl s); cbn; try destruct (omp s3); exact B.
Qed.
End Threads.

(** ** Examples *)
Definition start (o : option text) : world := {| omp := o; mkl := Some 4; live := []; opened := 0; log := [] |}.
Definition nested : block := Threads (Some 3) (Seq Look (Threads None Look)).
Lemma digits_by : forall t, forallb is_digit t = true -> Forall decimal_digit t.
Proof. intros t H. rewrite forallb_forall in H. apply Forall_forall. intros c I. apply is_digit_iff. now apply H. Qed.
Lemma spaces_by : forall t, forallb is_space t = true -> Forall space t.
Proof. intros t H. rewrite forallb_forall in H. apply Forall_forall. intros c I. apply is_space_iff. now apply H. Qed.
Lemma trimmed_by : forall t, t <> [] -> strip t = t -> trimmed t.
Proof.
  intros t N E. destruct (text_split t) as [S|(a & t' & b & A & B & T & H)]; [rewrite (strip_spaces S) in E; congruence|].
  rewrite H, (strip_trimmed A B T) in E. now rewrite H, <- E.
Qed.
