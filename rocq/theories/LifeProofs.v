(** Proofs about the life of operators. *)
From Verif Require Import Base FlagsModel AssocModel AssocSpec AssocProofs LifeModel LifeSpec.
Set Implicit Arguments.
Unset Strict Implicit.

Local Notation bit3 := (bool * bool * bool)%type.
Definition b000 : bit3 := (false, false, false).
Definition quad_of (F : bit3 -> oid) (b : bit3) : quad :=
  {| qC := F (bits_attr b AC); qT := F (bits_attr b AT); qH := F (bits_attr b AH); qI := F (bits_attr b AI) |}.
Definition family (s : state) (F : bit3 -> oid) : Prop :=
  forall b, exists l, objs s (F b) = Some (Live l) /\ links l = Some (quad_of F b).

(** ** The tables of associated operators *)
Definition slots_ok (t : table) : bool :=
  forallb (fun b => match tslot t b with Self => true | New g c => node_eqb (node_of t g) (New g c) end) bits8.
Definition nodots (f : flags) (t : table) : bool :=
  forallb (fun b => match tslot t b with New _ (SRule r) => negb (flag_rule r f) | _ => true end) bits8.

Lemma checks_ok :
  forallb (fun v => forallb (fun r => forallb (fun m =>
    let t := generate (flag7 v) (assoc7 r) (assoc7 (true :: m)) in slots_ok t && nodots (flag7 v) t)
    (vecs 6)) (vecs 7)) coherent_vecs = true.
Proof. vm_compute. reflexivity. Qed.

Lemma flag_rule_ext f f' r : vec7 f = vec7 f' -> flag_rule r f = flag_rule r f'.
Proof. intros e. injection e. intros. destruct r; cbn [flag_rule]; congruence. Qed.

Lemma nodots_ext f f' t : vec7 f = vec7 f' -> nodots f t = nodots f' t.
Proof.
  intros e. unfold nodots. generalize bits8. intros l. induction l as [|b l IH]; [reflexivity|]. cbn [forallb]. rewrite IH. f_equal.
  destruct (tslot t b) as [|g [q| | |]]; try reflexivity. now rewrite (flag_rule_ext q e).
Qed.

Lemma in_bits8 b : In b bits8.
Proof. destruct b as [[[] []] []]; unfold bits8; cbn [In]; tauto. Qed.

Lemma checks f r m : sound f ->
  slots_ok (generate f r m) = true /\ nodots f (generate f r m) = true.
Proof.
  intros [f0 [nc [E C]]]. subst f.
  assert (et : generate (deduce f0 nc) r m
               = generate (flag7 (vec7 (deduce f0 nc))) (assoc7 (vecA r)) (assoc7 (true :: tl (vecA m)))).
  { apply generate_ext; reflexivity. }
  pose proof checks_ok as H. rewrite forallb_forall in H. specialize (H _ (coherent_vec C)).
  pose proof (all_vecs H (eq_refl : length (vecA r) = 7%nat)) as H1. cbv beta in H1.
  pose proof (all_vecs H1 (eq_refl : length (tl (vecA m)) = 6%nat)) as H2. cbv beta zeta in H2.
  rewrite <- et in H2. apply andb_true_iff in H2. destruct H2 as [H2 H3]. split; [exact H2|].
  rewrite <- H3. apply nodots_ext. reflexivity.
Qed.

Lemma slot_self_name t b g c : slots_ok t = true -> tslot t b = New g c -> node_of t g = New g c.
Proof.
  intros H E. unfold slots_ok in H. rewrite forallb_forall in H. specialize (H b (in_bits8 b)).
  rewrite E in H. now apply node_eqbP in H.
Qed.

Definition no_dot (f : flags) (d : ruledict) : Prop := forall g, d g = Some PDot -> flag_rule g f = true.

Lemma resolve_same f d r m : sound f -> no_dot f d -> resolve d (generate f r m) = generate f r m.
Proof.
  intros S N. destruct (checks r m S) as [_ H]. unfold nodots in H. rewrite forallb_forall in H.
  assert (R : forall b, resolve_node d (tslot (generate f r m) b) = tslot (generate f r m) b).
  { intros b. specialize (H b (in_bits8 b)). destruct (tslot (generate f r m) b) as [|g [q| | |]]; try reflexivity.
    cbn [resolve_node]. destruct (d q) as [[]|] eqn:E; try reflexivity.
    apply N in E. rewrite E in H. discriminate H. }
  unfold resolve.
  pose proof (R (true, false, false)) as r1. pose proof (R (false, true, false)) as r2.
  pose proof (R (true, true, false)) as r3. pose proof (R (false, false, true)) as r4.
  pose proof (R (true, false, true)) as r5. pose proof (R (false, true, true)) as r6.
  pose proof (R (true, true, true)) as r7. cbn [tslot] in r1, r2, r3, r4, r5, r6, r7.
  rewrite r1, r2, r3, r4, r5, r6, r7. destruct (generate f r m); reflexivity.
Qed.

(** ** Families *)
Lemma upd_same {A} (m : nat -> A) k v : upd m k v k = v.
Proof. unfold upd. now rewrite Nat.eqb_refl. Qed.
Lemma upd_other {A} (m : nat -> A) k v x : x <> k -> upd m k v x = m x.
Proof. intros H. unfold upd. apply Nat.eqb_neq in H. now rewrite H. Qed.

Lemma pick_quad F b a : pick (quad_of F b) a = F (bits_attr b a).
Proof. destruct a; reflexivity. Qed.

Lemma family_chain s F : family s F -> forall p b, chain s (F b) p = Some (F (fold_left bits_attr p b)).
Proof.
  intros H p. induction p as [|a p IH]; intros b; [reflexivity|].
  cbn [chain fold_left]. destruct (H b) as [l [E1 E2]]. rewrite E1, E2, pick_quad. apply IH.
Qed.

Lemma families_meet s F G b c : family s F -> family s G -> F b = G c ->
  forall p, F (fold_left bits_attr p b) = G (fold_left bits_attr p c).
Proof.
  intros HF HG E p. pose proof (family_chain HF p b) as h1. rewrite E, (family_chain HG) in h1. congruence.
Qed.

(** Every combination of parities is reached from every other. *)
Lemma bits_reach b c : exists p, fold_left bits_attr p b = c.
Proof.
  destruct b as [[[] []] []], c as [[[] []] []].
  all: first [ exists []; reflexivity | exists [AC]; reflexivity | exists [AT]; reflexivity
             | exists [AH]; reflexivity | exists [AI]; reflexivity | exists [AI; AC]; reflexivity
             | exists [AI; AT]; reflexivity | exists [AI; AH]; reflexivity ].
Qed.

(** The invariant of the ordinary histories. *)
Record inv (s : state) : Prop := {
  inv_next : forall x, (next s <= x)%nat -> objs s x = None;
  inv_dict : forall x l, objs s x = Some (Live l) -> (rules l < nextdict s)%nat;
  inv_sound : forall x l, objs s x = Some (Live l) -> sound (flags_of l);
  inv_dot : forall x l, objs s x = Some (Live l) -> no_dot (flags_of l) (dicts s (rules l));
  inv_share : forall x l y m, objs s x = Some (Live l) -> objs s y = Some (Live m) -> rules l = rules m ->
    flags_of l = flags_of m;
  inv_family : forall x l q, objs s x = Some (Live l) -> links l = Some q -> exists F, family s F /\ F b000 = x }.

Lemma inv_start : inv start.
Proof. split; cbn [start objs]; intros; try discriminate; try reflexivity. Qed.

Lemma alive_old s x l : inv s -> objs s x = Some (Live l) -> (x < next s)%nat.
Proof.
  intros H E. destruct (Nat.lt_ge_cases x (next s)) as [h|h]; [exact h|].
  rewrite (inv_next H h) in E. discriminate E.
Qed.

(** Adding objects and changing others without touching their links keeps the families. *)
Lemma family_keep s s' F :
  (forall x l, objs s x = Some (Live l) -> links l <> None ->
     exists l', objs s' x = Some (Live l') /\ links l' = links l) ->
  family s F -> family s' F.
Proof.
  intros K H b. destruct (H b) as [l [E1 E2]].
  destruct (K _ _ E1) as [l' [e1 e2]]; [rewrite E2; discriminate|].
  exists l'. split; [exact e1|now rewrite e2].
Qed.

Lemma no_dot_init f t : no_dot f t -> no_dot f (init_rules f t).
Proof. intros H g. unfold init_rules. destruct (flag_rule g f) eqn:E; [reflexivity|]. intros h. apply H in h. congruence. Qed.
Lemma no_dot_empty f : no_dot f (fun _ => None).
Proof. intros g h. discriminate h. Qed.

Lemma inv_create d ops s : sound (d_flags d) -> inv s -> inv (create d ops s).
Proof.
  intros Sd H.
  assert (O : forall x b, objs (create d ops s) x = Some b ->
              objs s x = Some b \/ x = next s /\ exists l, b = Live l /\ rules l = nextdict s /\ flags_of l = d_flags d /\ links l = None).
  { intros x b. unfold create. cbn [objs]. destruct (Nat.eq_dec x (next s)) as [->|n].
    - rewrite upd_same. intros e. injection e as e. subst b. right. split; [reflexivity|]. eexists. repeat split.
    - rewrite (upd_other _ _ n). auto. }
  assert (K : forall x l, objs s x = Some (Live l) -> objs (create d ops s) x = Some (Live l)).
  { intros x l e. unfold create. cbn [objs]. rewrite upd_other; [exact e|]. pose proof (alive_old H e). lia. }
  assert (D : forall k, (k < nextdict s)%nat -> dicts (create d ops s) k = dicts s k).
  { intros k h. unfold create. cbn [dicts]. rewrite upd_other; [reflexivity|lia]. }
  split.
  - intros x h. unfold create in h |- *. cbn [objs next] in h |- *. rewrite upd_other by lia. apply (inv_next H). lia.
  - intros x l e. change (nextdict (create d ops s)) with (S (nextdict s)).
    destruct (O _ _ e) as [e'|[_ [l' [e1 [e2 _]]]]]; [pose proof (inv_dict H e'); lia|].
    injection e1 as ->. lia.
  - intros x l e. destruct (O _ _ e) as [e'|[_ [l' [e1 [_ [e2 _]]]]]]; [exact (inv_sound H e')|].
    injection e1 as ->. rewrite e2. exact Sd.
  - intros x l e. destruct (O _ _ e) as [e'|[_ [l' [e1 [e2 [e3 _]]]]]].
    + rewrite (D _ (inv_dict H e')). exact (inv_dot H e').
    + injection e1 as ->. rewrite e2, e3. unfold create. cbn [dicts]. rewrite upd_same.
      apply no_dot_init, no_dot_empty.
  - intros x l y m e e0 er. destruct (O _ _ e) as [e'|[_ [l' [e1 [e2 [e3 _]]]]]].
    + destruct (O _ _ e0) as [f'|[_ [m' [f1 [f2 [f3 _]]]]]]; [exact (inv_share H e' f' er)|].
      injection f1 as ->. pose proof (inv_dict H e'). lia.
    + injection e1 as ->. destruct (O _ _ e0) as [f'|[_ [m' [f1 [f2 [f3 _]]]]]].
      * pose proof (inv_dict H f'). lia.
      * injection f1 as ->. congruence.
  - intros x l q e eq. destruct (O _ _ e) as [e'|[_ [l' [e1 [_ [_ e4]]]]]].
    + destruct (inv_family H e' eq) as [F [f1 f2]]. exists F. split; [|exact f2].
      revert f1. apply family_keep. intros y m h _. exists m. split; [now apply K|reflexivity].
    + injection e1 as ->. rewrite e4 in eq. discriminate eq.
Qed.

(** A new object without links, with the flags and the rules of an existing one. *)
Lemma inv_alloc b s :
  (forall l, b = Live l -> links l = None /\ (rules l < nextdict s)%nat /\ sound (flags_of l) /\
                           no_dot (flags_of l) (dicts s (rules l)) /\
                           forall x m, objs s x = Some (Live m) -> rules m = rules l -> flags_of m = flags_of l) ->
  inv s -> inv (alloc b s).
Proof.
  intros B H.
  assert (O : forall x c, objs (alloc b s) x = Some c -> objs s x = Some c \/ x = next s /\ c = b).
  { intros x c. unfold alloc. cbn [objs]. destruct (Nat.eq_dec x (next s)) as [->|n].
    - rewrite upd_same. intros e. injection e as e. auto.
    - rewrite (upd_other _ _ n). auto. }
  assert (K : forall x l, objs s x = Some (Live l) -> objs (alloc b s) x = Some (Live l)).
  { intros x l e. unfold alloc. cbn [objs]. rewrite upd_other; [exact e|]. pose proof (alive_old H e). lia. }
  split.
  - intros x h. unfold alloc in h |- *. cbn [objs next] in h |- *. rewrite upd_other by lia. apply (inv_next H). lia.
  - intros x l e. change (nextdict (alloc b s)) with (nextdict s).
    destruct (O _ _ e) as [e'|[_ e']]; [exact (inv_dict H e')|]. now destruct (B l (eq_sym e')) as [_ [h _]].
  - intros x l e. destruct (O _ _ e) as [e'|[_ e']]; [exact (inv_sound H e')|].
    now destruct (B l (eq_sym e')) as [_ [_ [h _]]].
  - intros x l e. change (dicts (alloc b s)) with (dicts s).
    destruct (O _ _ e) as [e'|[_ e']]; [exact (inv_dot H e')|]. now destruct (B l (eq_sym e')) as [_ [_ [_ [h _]]]].
  - intros x l y m e e0 er. destruct (O _ _ e) as [e'|[_ e']], (O _ _ e0) as [f'|[_ f']].
    + exact (inv_share H e' f' er).
    + destruct (B m (eq_sym f')) as [_ [_ [_ [_ h]]]]. exact (h _ _ e' er).
    + destruct (B l (eq_sym e')) as [_ [_ [_ [_ h]]]]. symmetry. exact (h _ _ f' (eq_sym er)).
    + congruence.
  - intros x l q e eq. destruct (O _ _ e) as [e'|[_ e']].
    + destruct (inv_family H e' eq) as [F [f1 f2]]. exists F. split; [|exact f2].
      revert f1. apply family_keep. intros y m h _. exists m. split; [now apply K|reflexivity].
    + destruct (B l (eq_sym e')) as [h _]. rewrite h in eq. discriminate eq.
Qed.

(** Writing in a dict of rules. *)
Lemma inv_put_dict k t s :
  (forall x l, objs s x = Some (Live l) -> rules l = k -> no_dot (flags_of l) t) -> inv s -> inv (put_dict k t s).
Proof.
  intros T H. split.
  - exact (inv_next H).
  - exact (inv_dict H).
  - exact (inv_sound H).
  - intros x l e. change (objs (put_dict k t s)) with (objs s) in e. unfold put_dict. cbn [dicts].
    destruct (Nat.eq_dec (rules l) k) as [h|h].
    + rewrite h, upd_same. exact (T _ _ e h).
    + rewrite (upd_other _ _ h). exact (inv_dot H e).
  - exact (inv_share H).
  - exact (inv_family H).
Qed.

(** A dict with fewer '.' rules. *)
Lemma inv_put_dict_less k t s :
  (forall g, t g = Some PDot -> dicts s k g = Some PDot) -> inv s -> inv (put_dict k t s).
Proof.
  intros T H. apply inv_put_dict; [|exact H]. intros x l e h g d. subst k. apply (inv_dot H e). now apply T.
Qed.

(** Changing a live object in place without changing its flags, rules and links. *)
Lemma inv_put o l l' s : objs s o = Some (Live l) ->
  flags_of l' = flags_of l -> rules l' = rules l -> links l' = links l -> inv s -> inv (put o (Live l') s).
Proof.
  intros E ef er el H.
  assert (O : forall x c, objs (put o (Live l') s) x = Some c -> objs s x = Some c \/ x = o /\ c = Live l').
  { intros x c. unfold put. cbn [objs]. destruct (Nat.eq_dec x o) as [->|n].
    - rewrite upd_same. intros e. injection e as e. auto.
    - rewrite (upd_other _ _ n). auto. }
  assert (K : forall F, family s F -> family (put o (Live l') s) F).
  { intros F. apply family_keep. intros x m e _. unfold put. cbn [objs]. destruct (Nat.eq_dec x o) as [->|n].
    - rewrite upd_same. exists l'. split; [reflexivity|]. congruence.
    - rewrite (upd_other _ _ n). exists m. auto. }
  split.
  - intros x h. unfold put. cbn [objs]. change (next (put o (Live l') s)) with (next s) in h.
    rewrite upd_other; [apply (inv_next H h)|]. pose proof (alive_old H E). lia.
  - intros x m e. change (nextdict (put o (Live l') s)) with (nextdict s).
    destruct (O _ _ e) as [e'|[_ e']]; [exact (inv_dict H e')|].
    injection e' as ->. rewrite er. exact (inv_dict H E).
  - intros x m e. destruct (O _ _ e) as [e'|[_ e']]; [exact (inv_sound H e')|].
    injection e' as ->. rewrite ef. exact (inv_sound H E).
  - intros x m e. change (dicts (put o (Live l') s)) with (dicts s).
    destruct (O _ _ e) as [e'|[_ e']]; [exact (inv_dot H e')|].
    injection e' as ->. rewrite ef, er. exact (inv_dot H E).
  - intros x m y n e e0 eq. destruct (O _ _ e) as [e'|[_ e']], (O _ _ e0) as [f'|[_ f']].
    + exact (inv_share H e' f' eq).
    + injection f' as ->. rewrite ef. rewrite er in eq. exact (inv_share H e' E eq).
    + injection e' as ->. rewrite ef. rewrite er in eq. exact (inv_share H E f' eq).
    + congruence.
  - intros x m q e eq. destruct (O _ _ e) as [e'|[-> e']].
    + destruct (inv_family H e' eq) as [F [f1 f2]]. exists F. auto.
    + injection e' as ->. rewrite el in eq. destruct (inv_family H E eq) as [F [f1 f2]]. exists F. auto.
Qed.

(** ** The associated operators *)
Lemma slot_at_number g : slot_at (slot_number g) = Some g.
Proof. destruct g; reflexivity. Qed.
Lemma slot_number_lt g : (slot_number g < 7)%nat.
Proof. destruct g; cbn; lia. Qed.
Lemma slot_at_inv n g : slot_at n = Some g -> n = slot_number g.
Proof. do 7 (destruct n as [|n]; [intros e; injection e as <-; reflexivity|]). intros e. discriminate e. Qed.

Lemma get_pointers t n : (forall a, get (link t) n a <> None) -> exists p, link t n = Some p.
Proof. intros H. specialize (H AC). unfold get in H. destruct (link t n) as [p|]; [now exists p|now destruct H]. Qed.

(** The result of the generation, when it takes place. *)
Lemma associate_spec o child s l : inv s -> (forall g, sound (d_flags (child g))) ->
  objs s o = Some (Live l) -> links l = None ->
  exists s' F, associate o child s = Ok s' /\ F b000 = o /\ family s' F /\
    next s' = (next s + 7)%nat /\ nextdict s' = (nextdict s + 7)%nat /\
    (forall k, (k < nextdict s)%nat -> dicts s' k = dicts s k) /\
    counter s' = counter s /\ collected s' = collected s /\
    (forall x, x <> o -> (x < next s)%nat -> objs s' x = objs s x) /\
    (exists q, objs s' o = Some (Live (relink (Some q) l))) /\
    (forall b, F b = o \/ (next s <= F b)%nat) /\
    (forall x c, (next s <= x)%nat -> x <> o -> objs s' x = Some c ->
       exists m g, c = Live m /\ rules m = (nextdict s + slot_number g)%nat /\ x = (next s + slot_number g)%nat /\
                   flags_of m = d_flags (child g) /\ dicts s' (rules m) = init_rules (d_flags (child g)) (fun _ => None) /\
                   exists b, F b = x).
Proof.
  intros H S E L.
  pose proof (inv_sound H E) as Sf. pose proof (inv_dot H E) as Nd.
  set (d := dicts s (rules l)) in *.
  set (r := fun g => match d g with Some _ => true | None => false end).
  set (t := generate (flags_of l) r (has l)).
  assert (R : resolve d t = t) by (apply resolve_same; assumption).
  destruct (checks r (has l) Sf) as [SO _]. fold t in SO.
  assert (LK : forall b a, get (link t) (tslot t b) a = Some (tslot t (bits_attr b a))).
  { destruct Sf as [f0 [nc [Ef C]]]. intros b a. unfold t. rewrite Ef. apply link_slots. rewrite <- Ef. exact C. }
  set (F := fun b => name o (next s) (tslot t b)).
  assert (Q : forall b, quad_at o (next s) t (tslot t b) = Some (quad_of F b)).
  { intros b. unfold quad_at.
    destruct (link t (tslot t b)) as [p|] eqn:ep.
    - pose proof (LK b AC) as h1. pose proof (LK b AT) as h2. pose proof (LK b AH) as h3. pose proof (LK b AI) as h4.
      unfold get in h1, h2, h3, h4. rewrite ep in h1, h2, h3, h4.
      injection h1 as h1. injection h2 as h2. injection h3 as h3. injection h4 as h4.
      unfold quad_of, F. rewrite h1, h2, h3, h4. reflexivity.
    - pose proof (LK b AC) as h1. unfold get in h1. rewrite ep in h1. discriminate h1. }
  pose proof (alive_old H E) as Lo.
  unfold associate. rewrite E, L. cbv zeta. fold d. fold r. fold t. rewrite R.
  eexists. exists F. split; [reflexivity|].
  assert (A : forall x c, (next s <= x)%nat -> x <> o ->
    match slot_at (x - next s) with
    | Some g => match node_of t g with
                | New h c0 => if assoc_eq_dec g h then
                    Some (Live {| flags_of := d_flags (child g); has := d_has (child g); size := d_size (child g);
                                  rules := (nextdict s + slot_number g)%nat; links := quad_at o (next s) t (New h c0);
                                  operands := []; attrs := d_attrs (child g) x |})
                    else None
                | Self => None end
    | None => None end = Some c ->
    exists m g k, c = Live m /\ rules m = (nextdict s + slot_number g)%nat /\ x = (next s + slot_number g)%nat /\
       flags_of m = d_flags (child g) /\ node_of t g = New g k).
  { intros x c h n e. destruct (slot_at (x - next s)) as [g|] eqn:es; [|discriminate e].
    apply slot_at_inv in es. destruct (node_of t g) as [|h' c'] eqn:en; [discriminate e|].
    destruct (assoc_eq_dec g h') as [<-|]; [|discriminate e]. injection e as <-.
    eexists; exists g; exists c'. repeat split; try reflexivity; [|exact en]. rewrite <- es. lia. }
  assert (Ob : forall b, F b = o \/ exists g c, tslot t b = New g c /\ node_of t g = New g c /\ F b = (next s + slot_number g)%nat).
  { intros b. unfold F. destruct (tslot t b) as [|g c] eqn:et; [left; reflexivity|].
    right. exists g, c. split; [reflexivity|]. split; [exact (slot_self_name SO et)|]. reflexivity. }
  split; [reflexivity|]. split; [|split; [reflexivity|split; [reflexivity|split; [|split; [reflexivity|split; [reflexivity|split; [|split; [|split]]]]]]]].
  - intros b. cbn [objs]. destruct (tslot t b) as [|g c] eqn:et.
    + assert (e : F b = o) by (unfold F; now rewrite et). rewrite e, Nat.eqb_refl.
      eexists. split; [reflexivity|]. cbn [relink links]. rewrite <- et. apply Q.
    + assert (e : F b = (next s + slot_number g)%nat) by (unfold F; now rewrite et). rewrite e.
      destruct (Nat.eqb_spec (next s + slot_number g) o) as [h|_]; [lia|].
      destruct (Nat.ltb_spec (next s + slot_number g) (next s)) as [h|_]; [lia|].
      replace (next s + slot_number g - next s)%nat with (slot_number g) by lia.
      rewrite slot_at_number, (slot_self_name SO et). destruct (assoc_eq_dec g g) as [_|n]; [|now destruct n].
      eexists. split; [reflexivity|]. cbn [links]. rewrite <- et. apply Q.
  - intros k h. cbn [dicts]. apply Nat.ltb_lt in h. now rewrite h.
  - intros x n h. cbn [objs]. apply Nat.eqb_neq in n. rewrite n. apply Nat.ltb_lt in h. now rewrite h.
  - cbn [objs]. rewrite Nat.eqb_refl. exists (quad_of F b000). rewrite <- (Q b000). reflexivity.
  - intros b. destruct (Ob b) as [h|[g [c [_ [_ h]]]]]; [now left|]. right. rewrite h. lia.
  - intros x c h n. cbn [objs]. pose proof n as n'. apply Nat.eqb_neq in n'. rewrite n'.
    destruct (Nat.ltb_spec x (next s)) as [h'|_]; [lia|]. intros e.
    destruct (A x c h n e) as [m [g [k [e1 [e2 [e3 [e4 e5]]]]]]]. exists m, g.
    split; [exact e1|]. split; [exact e2|]. split; [exact e3|]. split; [exact e4|]. split.
    + cbn [dicts]. rewrite e2. destruct (Nat.ltb_spec (nextdict s + slot_number g) (nextdict s)) as [h'|_]; [lia|].
      replace (nextdict s + slot_number g - nextdict s)%nat with (slot_number g) by lia. now rewrite slot_at_number.
    + assert (B : exists b, tslot t b = node_of t g).
      { destruct g; [exists (true, false, false)|exists (false, true, false)|exists (true, true, false)
          |exists (false, false, true)|exists (true, false, true)|exists (false, true, true)|exists (true, true, true)]; reflexivity. }
      destruct B as [b eb]. exists b. unfold F. rewrite eb, e5. cbn [name]. now rewrite e3.
Qed.

Lemma inv_associate o child s s' : inv s -> (forall g, sound (d_flags (child g))) ->
  associate o child s = Ok s' -> inv s'.
Proof.
  intros H S E0. destruct (objs s o) as [[|l]|] eqn:E.
  1, 3: unfold associate in E0; rewrite E in E0; discriminate E0.
  destruct (links l) as [q|] eqn:L.
  { unfold associate in E0. rewrite E, L in E0. injection E0 as <-. exact H. }
  destruct (associate_spec H S E L) as [s'' [F [e [F0 [FF [en [ed [eD [_ [_ [eO [[q eo] [Fb eN]]]]]]]]]]]]].
  rewrite e in E0. injection E0 as ->. clear e.
  assert (C : forall x m, objs s' x = Some (Live m) ->
     (x <> o /\ objs s x = Some (Live m)) \/ (x = o /\ m = relink (Some q) l) \/
     (exists g, rules m = (nextdict s + slot_number g)%nat /\ x = (next s + slot_number g)%nat /\ flags_of m = d_flags (child g) /\
        dicts s' (rules m) = init_rules (d_flags (child g)) (fun _ => None) /\ exists b, F b = x)).
  { intros x m e. destruct (Nat.eq_dec x o) as [->|n].
    - right. left. split; [reflexivity|]. rewrite eo in e. injection e as <-. reflexivity.
    - destruct (Nat.lt_ge_cases x (next s)) as [h|h].
      + left. split; [exact n|]. now rewrite <- (eO x n h).
      + right. right. destruct (eN x _ h n e) as [m' [g [e1 e2]]]. injection e1 as <-. exists g. exact e2. }
  split.
  - intros x h. rewrite en in h. pose proof (alive_old H E).
    destruct (objs s' x) as [c|] eqn:ex; [|reflexivity].
    destruct (eN x c) as [m [g [_ [_ [e3 _]]]]]; try lia; [exact ex|]. pose proof (slot_number_lt g). lia.
  - intros x m e. rewrite ed. destruct (C x m e) as [[_ e']|[[_ ->]|[g [e1 _]]]].
    + pose proof (inv_dict H e'). lia.
    + cbn [relink rules]. pose proof (inv_dict H E). lia.
    + rewrite e1. pose proof (slot_number_lt g). lia.
  - intros x m e. destruct (C x m e) as [[_ e']|[[_ ->]|[g [_ [_ [e3 _]]]]]].
    + exact (inv_sound H e').
    + exact (inv_sound H E).
    + rewrite e3. apply S.
  - intros x m e. destruct (C x m e) as [[_ e']|[[_ ->]|[g [_ [_ [e3 [e4 _]]]]]]].
    + rewrite (eD _ (inv_dict H e')). exact (inv_dot H e').
    + cbn [relink rules flags_of]. rewrite (eD _ (inv_dict H E)). exact (inv_dot H E).
    + rewrite e4, e3. apply no_dot_init, no_dot_empty.
  - intros x m y n e e0 er. destruct (C x m e) as [[_ e']|[[_ ->]|[g [e1 [_ [e3 _]]]]]];
      destruct (C y n e0) as [[_ f']|[[_ ->]|[h [f1 [_ [f3 _]]]]]]; cbn [relink rules flags_of] in *.
    + exact (inv_share H e' f' er).
    + exact (inv_share H e' E er).
    + pose proof (inv_dict H e'). lia.
    + exact (inv_share H E f' er).
    + reflexivity.
    + pose proof (inv_dict H E). lia.
    + pose proof (inv_dict H f'). lia.
    + pose proof (inv_dict H E). lia.
    + rewrite e3, f3. rewrite e1, f1 in er.
      assert (sg : slot_number g = slot_number h) by lia.
      pose proof (slot_at_number g) as h1. rewrite sg, slot_at_number in h1. congruence.
  - intros x m q' e eq. destruct (C x m e) as [[n e']|[[-> _]|[g [_ [_ [_ [_ [b eb]]]]]]]].
    + destruct (inv_family H e' eq) as [G [g1 g2]]. exists G. split; [|exact g2].
      intros b. destruct (g1 b) as [k [k1 k2]]. exists k. split; [|exact k2].
      assert (Gb : G b <> o). { intros h. rewrite h, E in k1. injection k1 as <-. congruence. }
      rewrite (eO _ Gb (alive_old H k1)). exact k1.
    + exists F. split; assumption.
    + (* the family seen from another member *)
      destruct b as [[bc bt] bi].
      exists (fun c => let '(c1, c2, c3) := c in F (xorb bc c1, xorb bt c2, xorb bi c3)). split.
      * intros [[c1 c2] c3]. destruct (FF (xorb bc c1, xorb bt c2, xorb bi c3)) as [k [k1 k2]]. exists k. split; [exact k1|].
        rewrite k2. f_equal. unfold quad_of. cbn [bits_attr].
        destruct bc, bt, bi, c1, c2, c3; reflexivity.
      * cbn [b000]. rewrite !Bool.xorb_false_r. exact eb.
Qed.

(** ** delete *)
Section Delete.
Context (thr : nat).

Lemma kill_objs s o x : objs (kill thr s o) x =
  match objs s o with
  | Some (Live _) => if (x =? o)%nat then Some (Deleted (nbytes s o)) else objs s x
  | _ => objs s x
  end.
Proof.
  unfold kill. destruct (objs s o) as [[|l]|]; cbn [garbage_collect objs put]; try reflexivity.
Qed.
Lemma kill_rest s o : next (kill thr s o) = next s /\ dicts (kill thr s o) = dicts s /\ nextdict (kill thr s o) = nextdict s.
Proof. unfold kill. destruct (objs s o) as [[|l]|]; repeat split. Qed.

Lemma kills_rest ops s : let s' := fold_left (kill thr) ops s in
  next s' = next s /\ dicts s' = dicts s /\ nextdict s' = nextdict s.
Proof.
  revert s. induction ops as [|o ops IH]; intros s; cbn [fold_left]; [repeat split|].
  destruct (IH (kill thr s o)) as [h1 [h2 h3]]. destruct (kill_rest s o) as [k1 [k2 k3]]. cbv zeta.
  rewrite h1, h2, h3, k1, k2, k3. repeat split.
Qed.

(** The live operators of the list are deleted, the other objects are unchanged. *)
Lemma kills_objs ops s x : let s' := fold_left (kill thr) ops s in
  (~ In x ops -> objs s' x = objs s x) /\
  (forall l, objs s x = Some (Live l) -> In x ops -> deleted s' x) /\
  ((forall l, objs s x <> Some (Live l)) -> objs s' x = objs s x).
Proof.
  revert s. induction ops as [|o ops IH]; intros s; cbn [fold_left].
  { split; [reflexivity|]. split; [intros l _ []|reflexivity]. }
  cbv zeta. destruct (IH (kill thr s o)) as [h1 [h2 h3]].
  assert (N : (forall l, objs s x <> Some (Live l)) -> objs (kill thr s o) x = objs s x).
  { intros n. rewrite kill_objs. destruct (objs s o) as [[|l]|] eqn:e; try reflexivity.
    destruct (Nat.eqb_spec x o) as [->|]; [now destruct (n l)|reflexivity]. }
  split; [|split].
  - intros n. rewrite h1; [|intros h; apply n; now right]. rewrite kill_objs.
    destruct (objs s o) as [[|l]|]; try reflexivity.
    destruct (Nat.eqb_spec x o) as [->|]; [|reflexivity]. exfalso. apply n. now left.
  - intros l e i. destruct (Nat.eq_dec x o) as [->|n].
    + assert (K : objs (kill thr s o) o = Some (Deleted (nbytes s o))).
      { rewrite kill_objs, e, Nat.eqb_refl. reflexivity. }
      exists (nbytes s o). rewrite h3; [exact K|]. rewrite K. discriminate.
    + apply (h2 l); [|destruct i as [->|i]; [now destruct n|exact i]].
      rewrite kill_objs. destruct (objs s o) as [[|m]|]; try exact e.
      apply Nat.eqb_neq in n. now rewrite n.
  - intros n. rewrite h3; rewrite N by exact n; [reflexivity|exact n].
Qed.

(** The operators that delete goes through are those related to it. *)
Lemma delete_spec o s : inv s -> objs s o <> None ->
  exists ops, delete thr o s = Ok (fold_left (kill thr) ops s) /\ forall x, In x ops <-> related s o x.
Proof.
  intros H n. unfold delete. destruct (objs s o) as [[f|l]|] eqn:E; [| |now destruct n].
  - exists [o]. split; [reflexivity|]. intros x. split.
    + intros [<-|[]]. exists []. reflexivity.
    + intros [[|a p] e]; cbn [chain] in e; [injection e as <-; now left|]. rewrite E in e. discriminate e.
  - destruct (links l) as [q|] eqn:L.
    + destruct (inv_family H E L) as [F [FF F0]].
      destruct (FF b000) as [l0 [e1 e2]]. rewrite F0, E in e1. injection e1 as <-. rewrite L in e2. injection e2 as ->.
      change (qI (quad_of F b000)) with (F (false, false, true)).
      destruct (FF (false, false, true)) as [li [i1 i2]]. rewrite i1, i2.
      eexists. split; [reflexivity|]. intros x. cbn [quad_of qC qT qH qI bits_attr b000 negb].
      rewrite <- F0 at 1. split.
      * intros h.
        assert (B : exists b, F b = x).
        { cbn [In] in h. repeat (destruct h as [h|h]; [eexists; exact h|]). destruct h. }
        destruct B as [b <-]. destruct (bits_reach b000 b) as [p ep]. exists p. rewrite <- F0, (family_chain FF), ep. reflexivity.
      * intros [p ep]. rewrite <- F0, (family_chain FF) in ep. injection ep as <-.
        destruct (fold_left bits_attr p b000) as [[[] []] []]; cbn [In]; tauto.
    + exists [o]. split; [reflexivity|]. intros x. split.
      * intros [<-|[]]. exists []. reflexivity.
      * intros [[|a p] e]; cbn [chain] in e; [injection e as <-; now left|]. rewrite E, L in e. discriminate e.
Qed.

Lemma related_family s F x : family s F -> related s (F b000) x <-> exists b, F b = x.
Proof.
  intros FF. split.
  - intros [p e]. rewrite (family_chain FF) in e. injection e as <-. eexists. reflexivity.
  - intros [b <-]. destruct (bits_reach b000 b) as [p ep]. exists p. now rewrite (family_chain FF), ep.
Qed.

(** Two related operators are related to the same ones. *)
Lemma related_sym s x y : inv s -> related s x y -> related s y x.
Proof.
  intros H [p e]. destruct p as [|a p]; [injection e as <-; exists []; reflexivity|].
  cbn [chain] in e. destruct (objs s x) as [[|l]|] eqn:E; try discriminate e.
  destruct (links l) as [q|] eqn:L; [|discriminate e].
  destruct (inv_family H E L) as [F [FF F0]].
  assert (R : related s x y). { exists (a :: p). cbn [chain]. now rewrite E, L. }
  rewrite <- F0 in R |- *. apply (related_family _ FF) in R. destruct R as [b <-].
  destruct (bits_reach b b000) as [p' e']. exists p'. now rewrite (family_chain FF), e'.
Qed.
Lemma chain_app s x p q : chain s x (p ++ q) = match chain s x p with Some y => chain s y q | None => None end.
Proof.
  revert x. induction p as [|a p IH]; intros x; [reflexivity|]. cbn [app chain].
  destruct (objs s x) as [[|l]|]; try reflexivity. destruct (links l) as [k|]; [apply IH|reflexivity].
Qed.
Lemma related_trans s x y z : related s x y -> related s y z -> related s x z.
Proof. intros [p e] [q f]. exists (p ++ q). now rewrite chain_app, e. Qed.

(** A family with a member that stays keeps all its members. *)
Lemma delete_family o s s' ops F b : inv s -> s' = fold_left (kill thr) ops s -> (forall x, In x ops <-> related s o x) ->
  family s F -> alive s' (F b) -> family s' F.
Proof.
  intros H -> R FF [m em] c.
  destruct (FF c) as [l [e1 e2]]. exists l. split; [|exact e2].
  destruct (kills_objs ops s (F c)) as [k1 _]. rewrite k1; [exact e1|].
  intros i. apply R in i.
  assert (r : related s (F c) (F b)).
  { destruct (bits_reach c b) as [p ep]. exists p. now rewrite (family_chain FF), ep. }
  assert (i' : In (F b) ops) by (apply R; exact (related_trans i r)).
  destruct (FF b) as [lb [b1 _]]. destruct (kills_objs ops s (F b)) as [_ [k2 _]].
  destruct (k2 _ b1 i') as [z ez]. rewrite ez in em. discriminate em.
Qed.

Lemma kills_live ops s x l : objs (fold_left (kill thr) ops s) x = Some (Live l) -> objs s x = Some (Live l).
Proof.
  intros e. destruct (kills_objs ops s x) as [h1 [h2 h3]].
  destruct (objs s x) as [[f|m]|] eqn:E.
  - rewrite h3 in e by (intros k; discriminate). exact e.
  - destruct (in_dec Nat.eq_dec x ops) as [i|i].
    + destruct (h2 m eq_refl i) as [z ez]. rewrite ez in e. discriminate e.
    + rewrite (h1 i) in e. exact e.
  - rewrite h3 in e by (intros k; discriminate). exact e.
Qed.

Lemma inv_delete o s s' : inv s -> delete thr o s = Ok s' -> inv s'.
Proof.
  intros H e.
  assert (n : objs s o <> None). { intros h. unfold delete in e. rewrite h in e. discriminate e. }
  destruct (delete_spec H n) as [ops [E R]]. rewrite E in e. injection e as e.
  destruct (kills_rest ops s) as [r1 [r2 r3]]. rewrite e in r1, r2, r3.
  assert (K : forall x l, objs s' x = Some (Live l) -> objs s x = Some (Live l)).
  { intros x l h. rewrite <- e in h. exact (kills_live h). }
  split.
  - intros x h. rewrite r1 in h. destruct (kills_objs ops s x) as [_ [_ h3]]. rewrite e in h3.
    rewrite h3; [exact (inv_next H h)|]. rewrite (inv_next H h). discriminate.
  - intros x l h. rewrite r3. exact (inv_dict H (K _ _ h)).
  - intros x l h. exact (inv_sound H (K _ _ h)).
  - intros x l h. rewrite r2. exact (inv_dot H (K _ _ h)).
  - intros x l y m h1 h2. exact (inv_share H (K _ _ h1) (K _ _ h2)).
  - intros x l q h eq. destruct (inv_family H (K _ _ h) eq) as [F [FF F0]]. exists F. split; [|exact F0].
    apply (delete_family (b := b000) H (eq_sym e) R FF). rewrite F0. now exists l.
Qed.

Lemma inv_step s c : inv s -> ordinary c -> inv (step thr s c).
Proof.
  intros H O. unfold step. destruct (exec thr s c) as [s'|] eqn:E; [|exact H].
  destruct c as [d|d ops|o|o g|o k v|o g p|o g|o child|o|o]; cbn [exec ordinary] in E, O.
  - injection E as <-. now apply inv_create.
  - injection E as <-. now apply inv_create.
  - unfold copy in E. destruct (objs s o) as [[f|l]|] eqn:e; [| |discriminate E]; injection E as <-; apply inv_alloc; try exact H.
    + intros m h. discriminate h.
    + intros m h. injection h as <-. cbn [copied links rules flags_of]. split; [reflexivity|].
      split; [exact (inv_dict H e)|]. split; [exact (inv_sound H e)|]. split; [exact (inv_dot H e)|].
      intros x m' h1 h2. exact (inv_share H h1 e h2).
  - subst g. unfold wrap in E. destruct (objs s o) as [[f|l]|] eqn:e; try discriminate E. injection E as <-.
    assert (A : inv (alloc (Live (reflag (flags_of l) (copied o (next s) l))) s)).
    { apply inv_alloc; [|exact H]. intros m h. injection h as <-. cbn [reflag copied links rules flags_of].
      split; [reflexivity|]. split; [exact (inv_dict H e)|]. split; [exact (inv_sound H e)|]. split; [exact (inv_dot H e)|].
      intros x m' h1 h2. exact (inv_share H h1 e h2). }
    apply inv_put_dict; [|exact A]. intros x m h1 h2.
    assert (el : objs (alloc (Live (reflag (flags_of l) (copied o (next s) l))) s) o = Some (Live l)).
    { unfold alloc. cbn [objs]. rewrite upd_other; [exact e|]. pose proof (alive_old H e). lia. }
    rewrite (inv_share A h1 el h2). apply no_dot_init. exact (inv_dot H e).
  - unfold assign in E. destruct (objs s o) as [[f|l]|] eqn:e; try discriminate E. injection E as <-.
    apply (inv_put (l := l)); try assumption; reflexivity.
  - subst p. unfold set_rule in E. destruct (objs s o) as [[f|l]|] eqn:e; try discriminate E. injection E as <-.
    apply inv_put_dict_less; [|exact H]. intros h. destruct (assoc_eq_dec h g); [discriminate|auto].
  - unfold del_rule in E. destruct (objs s o) as [[f|l]|] eqn:e; try discriminate E.
    destruct (dicts s (rules l) g); [|discriminate E]. injection E as <-.
    apply inv_put_dict_less; [|exact H]. intros h. destruct (assoc_eq_dec h g); [discriminate|auto].
  - exact (inv_associate H O E).
  - destruct O.
  - exact (inv_delete H E).
Qed.

Lemma inv_run cs s : inv s -> Forall ordinary cs -> inv (run thr cs s).
Proof.
  revert s. induction cs as [|c cs IH]; intros s H O; [exact H|].
  inversion O; subst. cbn [run fold_left]. apply IH; [|assumption]. now apply inv_step.
Qed.
End Delete.

(** ** What the operations leave unchanged *)
Section Frame.
Context (thr : nat).

Lemma alive_exists s x : alive s x -> objs s x <> None.
Proof. intros [l e] h. rewrite e in h. discriminate h. Qed.
Lemma exists_old s x : inv s -> objs s x <> None -> (x < next s)%nat.
Proof.
  intros H n. destruct (Nat.lt_ge_cases x (next s)) as [h|h]; [exact h|]. now destruct n; apply (inv_next H).
Qed.

Definition is_delete (c : cmd) : Prop := match c with CDelete _ => True | _ => False end.

Lemma step_frame s c x : inv s -> ordinary c -> ~ is_delete c -> (x < next s)%nat -> target c <> Some x ->
  objs (step thr s c) x = objs s x.
Proof.
  intros H O N h T. unfold step. destruct (exec thr s c) as [s'|] eqn:E; [|reflexivity].
  destruct c as [d|d ops|o|o g|o k v|o g p|o g|o child|o|o]; cbn [exec ordinary is_delete target] in *.
  - injection E as <-. unfold create. cbn [objs]. apply upd_other. lia.
  - injection E as <-. unfold create. cbn [objs]. apply upd_other. lia.
  - unfold copy in E. destruct (objs s o) as [[f|l]|] eqn:e; [| |discriminate E]; injection E as <-;
      unfold alloc; cbn [objs]; apply upd_other; lia.
  - unfold wrap in E. destruct (objs s o) as [[f|l]|] eqn:e; try discriminate E. injection E as <-.
    unfold put_dict, alloc; cbn [objs]. apply upd_other. lia.
  - unfold assign in E. destruct (objs s o) as [[f|l]|] eqn:e; try discriminate E. injection E as <-.
    unfold put. cbn [objs]. apply upd_other. intros k'. apply T. now rewrite k'.
  - unfold set_rule in E. destruct (objs s o) as [[f|l]|] eqn:e; try discriminate E. injection E as <-. reflexivity.
  - unfold del_rule in E. destruct (objs s o) as [[f|l]|] eqn:e; try discriminate E.
    destruct (dicts s (rules l) g); [|discriminate E]. injection E as <-. reflexivity.
  - destruct (objs s o) as [[f|l]|] eqn:e; try (unfold associate in E; rewrite e in E; discriminate E).
    destruct (links l) as [q|] eqn:L; [unfold associate in E; rewrite e, L in E; injection E as <-; reflexivity|].
    destruct (associate_spec H O e L) as [s'' [F [e0 [_ [_ [_ [_ [_ [_ [_ [eO _]]]]]]]]]]].
    rewrite e0 in E. injection E as <-. apply eO; [intros k'; apply T; now rewrite k'|exact h].
  - destruct O.
  - now destruct N.
Qed.

Lemma step_target s c x l : inv s -> ordinary c -> ~ is_delete c -> target c = Some x -> objs s x = Some (Live l) ->
  exists l', objs (step thr s c) x = Some (Live l') /\ (links l = None \/ links l' = links l).
Proof.
  intros H O N T e. unfold step. destruct (exec thr s c) as [s'|] eqn:E; [|exists l; auto].
  destruct c as [d|d ops|o|o g|o k v|o g p|o g|o child|o|o]; cbn [exec ordinary is_delete target] in *; try discriminate T;
    try (injection T as ->).
  - unfold assign in E. rewrite e in E. injection E as <-. unfold put. cbn [objs]. rewrite upd_same. eexists. split; [reflexivity|].
    right. reflexivity.
  - unfold set_rule in E. rewrite e in E. injection E as <-. exists l. auto.
  - unfold del_rule in E. rewrite e in E. destruct (dicts s (rules l) g); [|discriminate E]. injection E as <-. exists l. auto.
  - destruct (links l) as [q|] eqn:L; [unfold associate in E; rewrite e, L in E; injection E as <-; exists l; auto|].
    destruct (associate_spec H O e L) as [s'' [F [e0 [_ [_ [_ [_ [_ [_ [_ [_ [[q eo] _]]]]]]]]]]]].
    rewrite e0 in E. injection E as <-. eexists. split; [exact eo|]. now left.
  - destruct O.
  - now destruct N.
Qed.

Lemma step_deleted s c x : inv s -> ordinary c -> objs s x <> None -> alive (step thr s c) x -> alive s x.
Proof.
  intros H O n [l' e']. destruct (objs s x) as [[f|l]|] eqn:e; [|now exists l|now destruct n].
  exfalso. assert (D : is_delete c \/ ~ is_delete c) by (destruct c; cbn [is_delete]; tauto).
  assert (h : (x < next s)%nat) by (apply (exists_old H); rewrite e; discriminate).
  destruct D as [D|D].
  - destruct c as [d|d ops|o|o g|o k v|o g p|o g|o child|o|o]; try destruct D.
    unfold step in e'. cbn [exec] in e'. destruct (delete thr o s) as [s'|] eqn:E; [|congruence].
    assert (no : objs s o <> None). { intros k. unfold delete in E. rewrite k in E. discriminate E. }
    destruct (delete_spec thr H no) as [ops [E1 _]]. rewrite E1 in E. injection E as <-.
    apply kills_live in e'. congruence.
  - assert (T : target c = Some x \/ target c <> Some x).
    { destruct (target c) as [z|]; [destruct (Nat.eq_dec z x); [left|right]; congruence|right; discriminate]. }
    destruct T as [T|T]; [|rewrite (step_frame H O D h T) in e'; congruence].
    (* an operation on a deleted operator raises *)
    unfold step in e'. destruct (exec thr s c) as [s'|] eqn:E; [|congruence].
    destruct c as [d|d ops|o|o g|o k v|o g p|o g|o child|o|o]; cbn [exec target ordinary is_delete] in *; try discriminate T;
      try (injection T as ->).
    + unfold assign in E. rewrite e in E. discriminate E.
    + unfold set_rule in E. rewrite e in E. discriminate E.
    + unfold del_rule in E. rewrite e in E. discriminate E.
    + unfold associate in E. rewrite e in E. discriminate E.
    + destruct O.
    + now destruct D.
Qed.

Lemma step_exists s c x : inv s -> ordinary c -> objs s x <> None -> objs (step thr s c) x <> None.
Proof.
  intros H O n. pose proof (exists_old H n) as h.
  assert (D : is_delete c \/ ~ is_delete c) by (destruct c; cbn [is_delete]; tauto).
  destruct D as [D|D].
  - destruct c as [d|d ops|o|o g|o k v|o g p|o g|o child|o|o]; try destruct D.
    unfold step. cbn [exec]. destruct (delete thr o s) as [s'|] eqn:E; [|exact n].
    assert (no : objs s o <> None). { intros k. unfold delete in E. rewrite k in E. discriminate E. }
    destruct (delete_spec thr H no) as [ops [E1 _]]. rewrite E1 in E. injection E as <-.
    destruct (kills_objs thr ops s x) as [h1 [h2 h3]]. destruct (objs s x) as [[f|l]|] eqn:e; [| |now destruct n].
    + rewrite h3; discriminate.
    + destruct (in_dec Nat.eq_dec x ops) as [i|i].
      * destruct (h2 l eq_refl i) as [z ez]. rewrite ez. discriminate.
      * rewrite (h1 i). discriminate.
  - assert (T : target c = Some x \/ target c <> Some x).
    { destruct (target c) as [z|]; [destruct (Nat.eq_dec z x); [left|right]; congruence|right; discriminate]. }
    destruct T as [T|T]; [|rewrite (step_frame H O D h T); exact n].
    destruct (objs s x) as [[f|l]|] eqn:e; [| |now destruct n].
    + unfold step. destruct (exec thr s c) as [s'|] eqn:E; [|congruence].
      destruct c as [d|d ops|o|o g|o k v|o g p|o g|o child|o|o]; cbn [exec target ordinary is_delete] in *; try discriminate T;
        try (injection T as ->).
      * unfold assign in E. rewrite e in E. discriminate E.
      * unfold set_rule in E. rewrite e in E. discriminate E.
      * unfold del_rule in E. rewrite e in E. discriminate E.
      * unfold associate in E. rewrite e in E. discriminate E.
      * destruct O.
      * now destruct D.
    + destruct (step_target H O D T e) as [l' [h' _]]. rewrite h'. discriminate.
Qed.

Lemma step_family s c F b : inv s -> ordinary c -> family s F -> alive (step thr s c) (F b) -> family (step thr s c) F.
Proof.
  intros H O FF A.
  assert (D : is_delete c \/ ~ is_delete c) by (destruct c; cbn [is_delete]; tauto).
  destruct D as [D|D].
  - destruct c as [d|d ops|o|o g|o k v|o g p|o g|o child|o|o]; try destruct D.
    unfold step in A |- *. cbn [exec] in A |- *. destruct (delete thr o s) as [s'|] eqn:E; [|exact FF].
    assert (no : objs s o <> None). { intros k. unfold delete in E. rewrite k in E. discriminate E. }
    destruct (delete_spec thr H no) as [ops [E1 R]]. rewrite E1 in E. injection E as E.
    exact (delete_family H (eq_sym E) R FF A).
  - apply (family_keep (s := s)); [|exact FF]. intros x l e n.
    assert (T : target c = Some x \/ target c <> Some x).
    { destruct (target c) as [z|]; [destruct (Nat.eq_dec z x); [left|right]; congruence|right; discriminate]. }
    destruct T as [T|T].
    + destruct (step_target H O D T e) as [l' [h1 [h2|h2]]]; [now destruct n|]. exists l'. auto.
    + exists l. rewrite (step_frame H O D (alive_old H e) T). auto.
Qed.

Lemma run_alive cs s x : inv s -> Forall ordinary cs -> objs s x <> None -> alive (run thr cs s) x -> alive s x.
Proof.
  revert s. induction cs as [|c cs IH]; intros s H O n A; [exact A|]. inversion O; subst.
  apply (step_deleted (c := c) H); [assumption|exact n|].
  apply IH; [now apply inv_step|assumption|now apply step_exists|exact A].
Qed.

Lemma run_family cs s F b : inv s -> Forall ordinary cs -> family s F -> alive (run thr cs s) (F b) -> family (run thr cs s) F.
Proof.
  revert s. induction cs as [|c cs IH]; intros s H O FF A; [exact FF|]. inversion O; subst.
  assert (n : objs s (F b) <> None). { destruct (FF b) as [l [e _]]. rewrite e. discriminate. }
  apply IH; [now apply inv_step|assumption| |exact A].
  apply (step_family (b := b)); [exact H|assumption|exact FF|].
  apply (run_alive (cs := cs)); [now apply inv_step|assumption|now apply step_exists|exact A].
Qed.

(** ** The theorems *)
Lemma linked_family s x a : inv s -> chain s x [a] <> None -> exists F, family s F /\ F b000 = x.
Proof.
  intros H n. cbn [chain] in n. destruct (objs s x) as [[|l]|] eqn:e; try now destruct n.
  destruct (links l) as [q|] eqn:L; [|now destruct n]. exact (inv_family H e L).
Qed.

Lemma group s x p q : inv s -> chain s x [AC] <> None -> bits p = bits q ->
  chain s x p = chain s x q /\ exists y, chain s x p = Some y /\ alive s y.
Proof.
  intros H n e. destruct (linked_family H n) as [F [FF F0]]. rewrite <- F0, !(family_chain FF).
  unfold bits in e. change (false, false, false) with b000 in e. rewrite e. split; [reflexivity|].
  eexists. split; [reflexivity|]. destruct (FF (fold_left bits_attr q b000)) as [l [h _]]. now exists l.
Qed.

Lemma stable cs s x p y : inv s -> Forall ordinary cs -> chain s x p = Some y -> alive (run thr cs s) x ->
  chain (run thr cs s) x p = Some y.
Proof.
  intros H O e A. destruct p as [|a p]; [exact e|].
  assert (n : chain s x [a] <> None).
  { cbn [chain] in e |- *. destruct (objs s x) as [[|l]|]; try discriminate e. destruct (links l); [discriminate|discriminate e]. }
  destruct (linked_family H n) as [F [FF F0]]. subst x.
  rewrite (family_chain (run_family H O FF A)). rewrite (family_chain FF) in e. exact e.
Qed.

Lemma stable_alive cs s x p y : inv s -> Forall ordinary cs -> chain s x p = Some y -> alive (run thr cs s) x ->
  chain (run thr cs s) x p = Some y /\ alive (run thr cs s) y.
Proof.
  intros H O e A. pose proof (stable H O e A) as e'. split; [exact e'|].
  destruct p as [|a p]; [injection e' as <-; exact A|].
  assert (n : chain (run thr cs s) x [AC] <> None).
  { cbn [chain] in e' |- *. destruct (objs (run thr cs s) x) as [[|l]|]; try discriminate e'. destruct (links l); [discriminate|discriminate e']. }
  destruct (group (p := a :: p) (inv_run thr H O) n eq_refl) as [_ [z [ez az]]]. rewrite e' in ez. injection ez as ->. exact az.
Qed.

Lemma copy_theorem s o l : inv s -> objs s o = Some (Live l) ->
  exists s' x l', copy o s = Ok s' /\ objs s x = None /\ objs s' x = Some (Live l') /\
    flags_of l' = flags_of l /\ operands l' = operands l /\ size l' = size l /\ links l' = None /\
    (forall k v, attrs l k = Some (Plain v) -> attrs l' k = Some (Plain v)) /\
    (forall k f, attrs l k = Some (Bound f o) -> attrs l' k = Some (Bound f x)) /\
    (forall k f y, y <> o -> attrs l k = Some (Bound f y) -> attrs l' k = Some (Bound f y)) /\
    (forall k, attrs l k = None -> attrs l' k = None) /\
    (forall y, y <> x -> objs s' y = objs s y) /\ dicts s' = dicts s.
Proof.
  intros H e. unfold copy. rewrite e. do 2 eexists. exists (copied o (next s) l). split; [reflexivity|].
  split; [apply (inv_next H); apply Nat.le_refl|].
  split; [unfold alloc; cbn [objs]; apply upd_same|].
  cbn [copied flags_of operands size links attrs]. do 4 (split; [reflexivity|]).
  split; [intros k v h; now rewrite h|].
  split; [intros k f h; rewrite h; cbn [rebind]; now rewrite Nat.eqb_refl|].
  split; [intros k f y n h; rewrite h; cbn [rebind]; apply Nat.eqb_neq in n; now rewrite n|].
  split; [intros k h; now rewrite h|].
  split; [|reflexivity]. intros y n. unfold alloc. cbn [objs]. now apply upd_other.
Qed.

Lemma delete_theorem s o : inv s -> objs s o <> None ->
  exists s', delete thr o s = Ok s' /\ dicts s' = dicts s /\
    (forall x, related s o x -> objs s x <> None -> deleted s' x) /\
    (forall x, ~ related s o x -> objs s' x = objs s x).
Proof.
  intros H n. destruct (delete_spec thr H n) as [ops [E R]]. eexists. split; [exact E|].
  destruct (kills_rest thr ops s) as [_ [h _]]. split; [exact h|]. split.
  - intros x r nx. destruct (kills_objs thr ops s x) as [_ [h2 h3]]. destruct (objs s x) as [[f|l]|] eqn:e; [| |now destruct nx].
    + exists f. apply h3. discriminate.
    + apply (h2 l eq_refl). now apply R.
  - intros x r. destruct (kills_objs thr ops s x) as [h1 _]. apply h1. intros i. apply r. now apply R.
Qed.

Lemma related_exists s x y : inv s -> objs s x <> None -> related s x y -> objs s y <> None.
Proof.
  intros H n [[|a p] e]; [injection e as <-; exact n|].
  assert (c : chain s x [a] <> None).
  { cbn [chain] in e |- *. destruct (objs s x) as [[|l]|]; try discriminate e. destruct (links l); [discriminate|discriminate e]. }
  destruct (linked_family H c) as [F [FF F0]]. subst x. rewrite (family_chain FF) in e. 
  destruct (FF (fold_left bits_attr (a :: p) b000)) as [l [h _]]. intros k. congruence.
Qed.

Lemma delete_any s o x : inv s -> objs s o <> None -> related s o x ->
  exists s1 s2, delete thr o s = Ok s1 /\ delete thr x s = Ok s2 /\ forall y, deleted s1 y <-> deleted s2 y.
Proof.
  intros H n r. pose proof (related_exists H n r) as nx.
  destruct (delete_theorem H n) as [s1 [e1 [_ [a1 b1]]]]. destruct (delete_theorem H nx) as [s2 [e2 [_ [a2 b2]]]].
  exists s1, s2. split; [exact e1|]. split; [exact e2|].
  destruct (delete_spec thr H n) as [ops1 [E1 R1]]. destruct (delete_spec thr H nx) as [ops2 [E2 R2]].
  assert (I : forall y, related s o y <-> related s x y).
  { intros y. split; intros h.
    - exact (related_trans (related_sym H r) h).
    - exact (related_trans r h). }
  assert (dec : forall y, related s o y \/ ~ related s o y).
  { intros y. destruct (in_dec Nat.eq_dec y ops1) as [i|i]; [left; now apply R1|right; intros k; apply i; now apply R1]. }
  intros y. destruct (dec y) as [k|k].
  - pose proof (related_exists H n k) as ny. split; intros _; [apply a2; [now apply I|exact ny]|now apply a1].
  - assert (k' : ~ related s x y) by (intros h; apply k; now apply I).
    unfold deleted. rewrite (b1 y k), (b2 y k'). reflexivity.
Qed.

(** ** Independence *)
Lemma chain_old s s' n : inv s -> (n = next s)%nat -> (forall y, (y < n)%nat -> objs s' y = objs s y) ->
  forall p y, (y < n)%nat -> chain s' y p = chain s y p /\ forall z, chain s y p = Some z -> (z < n)%nat.
Proof.
  intros H -> E p. induction p as [|a p IH]; intros y h.
  { split; [reflexivity|]. intros z e. injection e as <-. exact h. }
  cbn [chain]. rewrite (E y h). destruct (objs s y) as [[|l]|] eqn:e; try (split; [reflexivity|intros z k; discriminate k]).
  destruct (links l) as [q|] eqn:L; [|split; [reflexivity|intros z k; discriminate k]].
  apply IH. destruct (inv_family H e L) as [F [FF F0]].
  destruct (FF b000) as [l0 [e1 e2]]. rewrite F0, e in e1. injection e1 as <-. rewrite L in e2. injection e2 as ->.
  rewrite pick_quad. destruct (FF (bits_attr b000 a)) as [l1 [h1 _]]. exact (alive_old H h1).
Qed.

Definition on_new (n : nat) (c : cmd) : Prop := forall z, target c = Some z -> (n <= z)%nat.

Lemma step_next s c : inv s -> ordinary c -> (next s <= next (step thr s c))%nat /\ (nextdict s <= nextdict (step thr s c))%nat.
Proof.
  intros H O. unfold step. destruct (exec thr s c) as [s'|] eqn:E; [|lia].
  destruct c as [d|d ops|o|o g|o k v|o g p|o g|o child|o|o]; cbn [exec ordinary] in *.
  - injection E as <-. unfold create. cbn [next nextdict]. lia.
  - injection E as <-. unfold create. cbn [next nextdict]. lia.
  - unfold copy in E. destruct (objs s o) as [[f|l]|] eqn:e; [| |discriminate E]; injection E as <-;
      unfold alloc; cbn [next nextdict]; lia.
  - unfold wrap in E. destruct (objs s o) as [[f|l]|] eqn:e; try discriminate E. injection E as <-.
    unfold put_dict, alloc; cbn [next nextdict]. lia.
  - unfold assign in E. destruct (objs s o) as [[f|l]|] eqn:e; try discriminate E. injection E as <-.
    unfold put. cbn [next nextdict]. lia.
  - unfold set_rule in E. destruct (objs s o) as [[f|l]|] eqn:e; try discriminate E. injection E as <-. cbn. lia.
  - unfold del_rule in E. destruct (objs s o) as [[f|l]|] eqn:e; try discriminate E.
    destruct (dicts s (rules l) g); [|discriminate E]. injection E as <-. cbn. lia.
  - destruct (objs s o) as [[f|l]|] eqn:e; try (unfold associate in E; rewrite e in E; discriminate E).
    destruct (links l) as [q|] eqn:L; [unfold associate in E; rewrite e, L in E; injection E as <-; lia|].
    destruct (associate_spec H O e L) as [s'' [F [e0 [_ [_ [e1 [e2 _]]]]]]].
    rewrite e0 in E. injection E as <-. lia.
  - destruct O.
  - assert (no : objs s o <> None). { intros k. unfold delete in E. rewrite k in E. discriminate E. }
    destruct (delete_spec thr H no) as [ops [E1 R]]. rewrite E1 in E. injection E as <-.
    destruct (kills_rest thr ops s) as [h1 [_ h3]]. rewrite h1, h3. lia.
Qed.

Lemma step_dicts s c k : inv s -> ordinary c -> ~ writes_rules c -> (k < nextdict s)%nat ->
  dicts (step thr s c) k = dicts s k.
Proof.
  intros H O W h. unfold step. destruct (exec thr s c) as [s'|] eqn:E; [|reflexivity].
  destruct c as [d|d ops|o|o g|o a v|o g p|o g|o child|o|o]; cbn [exec ordinary writes_rules] in *; try (now destruct W).
  - injection E as <-. unfold create. cbn [dicts]. apply upd_other. lia.
  - injection E as <-. unfold create. cbn [dicts]. apply upd_other. lia.
  - unfold copy in E. destruct (objs s o) as [[f|l]|] eqn:e; [| |discriminate E]; injection E as <-; reflexivity.
  - unfold assign in E. destruct (objs s o) as [[f|l]|] eqn:e; try discriminate E. injection E as <-. reflexivity.
  - destruct (objs s o) as [[f|l]|] eqn:e; try (unfold associate in E; rewrite e in E; discriminate E).
    destruct (links l) as [q|] eqn:L; [unfold associate in E; rewrite e, L in E; injection E as <-; reflexivity|].
    destruct (associate_spec H O e L) as [s'' [F [e0 [_ [_ [_ [_ [eD _]]]]]]]].
    rewrite e0 in E. injection E as <-. now apply eD.
  - assert (no : objs s o <> None). { intros z. unfold delete in E. rewrite z in E. discriminate E. }
    destruct (delete_spec thr H no) as [ops [E1 R]]. rewrite E1 in E. injection E as <-.
    destruct (kills_rest thr ops s) as [_ [h2 _]]. now rewrite h2.
Qed.

Lemma independent_aux cs : forall s0 s, inv s0 -> inv s -> (next s0 <= next s)%nat -> (nextdict s0 <= nextdict s)%nat ->
  (forall y, (y < next s0)%nat -> objs s y = objs s0 y) ->
  Forall ordinary cs -> Forall (on_new (next s0)) cs ->
  (forall y, (y < next s0)%nat -> objs (run thr cs s) y = objs s0 y) /\
  (Forall (fun c => ~ writes_rules c) cs -> forall k, (k < nextdict s0)%nat -> dicts (run thr cs s) k = dicts s k).
Proof.
  induction cs as [|c cs IH]; intros s0 s H0 H ln ld E O T; [split; [exact E|reflexivity]|].
  inversion O as [|? ? o1 o2]; subst. inversion T as [|? ? t1 t2]; subst.
  destruct (step_next H o1) as [sn sd].
  assert (E' : forall y, (y < next s0)%nat -> objs (step thr s c) y = objs s0 y).
  { intros y h. rewrite <- (E y h).
    assert (D : is_delete c \/ ~ is_delete c) by (destruct c; cbn [is_delete]; tauto).
    destruct D as [D|D].
    - destruct c as [d|d ops|o|o g|o k v|o g p|o g|o child|o|o]; try destruct D.
      specialize (t1 o eq_refl). unfold step. cbn [exec]. destruct (delete thr o s) as [s'|] eqn:Ed; [|reflexivity].
      assert (no : objs s o <> None). { intros k. unfold delete in Ed. rewrite k in Ed. discriminate Ed. }
      destruct (delete_theorem H no) as [s2 [e2 [_ [_ b2]]]]. rewrite e2 in Ed. injection Ed as <-.
      apply b2. intros r. apply (related_sym H) in r. destruct r as [p ep].
      destruct (chain_old H0 eq_refl E p h) as [c1 c2]. rewrite c1 in ep. apply c2 in ep. lia.
    - apply step_frame; try assumption; [lia|]. intros k. specialize (t1 _ k). lia. }
  destruct (IH s0 (step thr s c)) as [r1 r2]; try assumption; try lia; [now apply inv_step|].
  cbn [run fold_left]. fold (run thr cs (step thr s c)). split; [exact r1|].
  intros W k h. inversion W; subst. rewrite r2 by assumption. apply step_dicts; try assumption. lia.
Qed.

Lemma independent cs s : inv s -> Forall ordinary cs -> Forall (on_new (next s)) cs ->
  (forall y, (y < next s)%nat -> objs (run thr cs s) y = objs s y) /\
  (Forall (fun c => ~ writes_rules c) cs -> forall k, (k < nextdict s)%nat -> dicts (run thr cs s) k = dicts s k).
Proof. intros H O T. apply independent_aux; try assumption; try lia. reflexivity. Qed.
End Frame.

(** ** The garbage counter *)
Lemma sum_change (f g : nat -> nat) o n b : (o < n)%nat -> (forall x, x <> o -> g x = f x) -> g o = (f o + b)%nat ->
  list_sum (map g (seq 0 n)) = (list_sum (map f (seq 0 n)) + b)%nat.
Proof.
  intros h E Eo.
  assert (G : forall m a, (a <= o < a + m)%nat -> list_sum (map g (seq a m)) = (list_sum (map f (seq a m)) + b)%nat).
  { induction m as [|m IH]; intros a [h1 h2]; [lia|]. cbn [seq map list_sum fold_right].
    fold (list_sum (map g (seq (S a) m))). fold (list_sum (map f (seq (S a) m))).
    destruct (Nat.eq_dec a o) as [->|na].
    - rewrite Eo.
      assert (R : map g (seq (S o) m) = map f (seq (S o) m)).
      { apply map_ext_in. intros x i. apply in_seq in i. apply E. lia. }
      rewrite R. lia.
    - rewrite (E a na), IH by lia. lia. }
  apply (G n 0%nat). lia.
Qed.
Lemma sum_same (f g : nat -> nat) n : (forall x, (x < n)%nat -> g x = f x) ->
  list_sum (map g (seq 0 n)) = list_sum (map f (seq 0 n)).
Proof. intros E. f_equal. apply map_ext_in. intros x i. apply in_seq in i. apply E. lia. Qed.

Record counted (thr : nat) (s : state) : Prop := {
  c_next : forall x, (next s <= x)%nat -> objs s x = None;
  c_low : (0 < thr)%nat -> (counter s < thr)%nat;
  c_sum : (counter s + list_sum (collected s))%nat = freed s;
  c_high : Forall (fun c => (thr <= c)%nat) (collected s) }.

(** Objects created or changed, none of them deleted with bytes. *)
Lemma counted_same thr s s' : counted thr s -> counter s' = counter s -> collected s' = collected s ->
  (next s <= next s')%nat ->
  (forall x, (next s' <= x)%nat -> objs s' x = None) ->
  (forall x, (x < next s)%nat -> freed_by s' x = freed_by s x) ->
  (forall x, (next s <= x)%nat -> freed_by s' x = 0%nat) -> counted thr s'.
Proof.
  intros H e1 e2 h N A B. split.
  - exact N.
  - rewrite e1. exact (c_low H).
  - rewrite e1, e2, (c_sum H). unfold freed.
    replace (next s') with (next s + (next s' - next s))%nat by lia.
    rewrite seq_app, map_app, list_sum_app, Nat.add_0_l.
    assert (Z : list_sum (map (freed_by s') (seq (next s) (next s' - next s))) = 0%nat).
    { generalize (next s' - next s)%nat as m. intros m.
      assert (G : forall k a, (next s <= a)%nat -> list_sum (map (freed_by s') (seq a k)) = 0%nat).
      { induction k as [|k IH]; intros a ha; [reflexivity|]. cbn [seq map list_sum fold_right].
        fold (list_sum (map (freed_by s') (seq (S a) k))). rewrite (B a ha), IH by lia. reflexivity. }
      apply G. lia. }
    pose proof (sum_same (f := freed_by s) (g := freed_by s') A) as Y.
    transitivity (list_sum (map (freed_by s') (seq 0 (next s))) + 0)%nat; [rewrite Nat.add_0_r; symmetry; exact Y|].
    f_equal. symmetry. exact Z.
  - rewrite e2. exact (c_high H).
Qed.

Lemma counted_collect thr s n : counted thr s ->
  (0 < thr -> counter (garbage_collect thr n s) < thr)%nat /\
  (counter (garbage_collect thr n s) + list_sum (collected (garbage_collect thr n s)) = freed s + n)%nat /\
  Forall (fun c => (thr <= c)%nat) (collected (garbage_collect thr n s)).
Proof.
  intros H. unfold garbage_collect. cbn [counter collected].
  pose proof (c_sum H). destruct (Nat.leb_spec thr (counter s + n)) as [h|h].
  - split; [lia|]. split; [rewrite list_sum_app; cbn [list_sum fold_right]; lia|].
    apply Forall_app. split; [exact (c_high H)|]. constructor; [exact h|constructor].
  - split; [lia|]. split; [lia|]. exact (c_high H).
Qed.

Lemma counted_kill thr s o : counted thr s -> counted thr (kill thr s o).
Proof.
  intros H. unfold kill. destruct (objs s o) as [[f|l]|] eqn:e.
  - assert (b : nbytes s o = 0%nat) by (unfold nbytes; cbn [nbytes_fuel]; now rewrite e).
    destruct (counted_collect (nbytes s o) H) as [k1 [k2 k3]]. rewrite b in *.
    split; [exact (c_next H)|exact k1| |exact k3]. rewrite k2. unfold freed, freed_by. cbn [garbage_collect objs next]. lia.
  - destruct (counted_collect (nbytes s o) H) as [k1 [k2 k3]].
    assert (h : (o < next s)%nat).
    { destruct (Nat.lt_ge_cases o (next s)) as [h|h]; [exact h|]. rewrite (c_next H h) in e. discriminate e. }
    split; [|exact k1| |exact k3].
    + intros x hx. cbn [garbage_collect put objs next] in hx |- *. rewrite upd_other by lia. exact (c_next H hx).
    + change (counter (garbage_collect thr (nbytes s o) (put o (Deleted (nbytes s o)) s)))
        with (counter (garbage_collect thr (nbytes s o) s)).
      change (collected (garbage_collect thr (nbytes s o) (put o (Deleted (nbytes s o)) s)))
        with (collected (garbage_collect thr (nbytes s o) s)).
      rewrite k2. unfold freed. cbn [garbage_collect put next]. symmetry.
      apply (sum_change (o := o)); [exact h| |].
      * intros x n. unfold freed_by. cbn [garbage_collect put objs]. now rewrite (upd_other _ _ n).
      * unfold freed_by. cbn [garbage_collect put objs]. rewrite upd_same, e. reflexivity.
  - assert (b : nbytes s o = 0%nat) by (unfold nbytes; cbn [nbytes_fuel]; now rewrite e).
    destruct (counted_collect (nbytes s o) H) as [k1 [k2 k3]]. rewrite b in *.
    split; [exact (c_next H)|exact k1| |exact k3]. rewrite k2. unfold freed, freed_by. cbn [garbage_collect objs next]. lia.
Qed.

Lemma counted_kills thr ops s : counted thr s -> counted thr (fold_left (kill thr) ops s).
Proof. revert s. induction ops as [|o ops IH]; intros s H; [exact H|]. cbn [fold_left]. apply IH. now apply counted_kill. Qed.

Lemma counted_alloc thr b s : counted thr s -> (forall f, b = Deleted f -> f = 0%nat) -> counted thr (alloc b s).
Proof.
  intros H B. apply (counted_same H); try reflexivity; unfold freed_by, alloc; cbn [objs next].
  - lia.
  - intros x h. rewrite upd_other by lia. apply (c_next H). lia.
  - intros x h. now rewrite upd_other by lia.
  - intros x h. destruct (Nat.eq_dec x (next s)) as [->|n].
    + rewrite upd_same. destruct b as [f|l]; [now apply B|reflexivity].
    + rewrite (upd_other _ _ n). now rewrite (c_next H h).
Qed.

Lemma counted_put thr o l l' s : counted thr s -> objs s o = Some (Live l) -> counted thr (put o (Live l') s).
Proof.
  intros H e.
  assert (h : (o < next s)%nat).
  { destruct (Nat.lt_ge_cases o (next s)) as [h|h]; [exact h|]. rewrite (c_next H h) in e. discriminate e. }
  apply (counted_same H); try reflexivity; unfold freed_by, put; cbn [objs next].
  - intros x hx. rewrite upd_other by lia. exact (c_next H hx).
  - intros x _. destruct (Nat.eq_dec x o) as [->|n]; [now rewrite upd_same, e|now rewrite (upd_other _ _ n)].
  - intros x hx. rewrite upd_other by lia. now rewrite (c_next H hx).
Qed.

Lemma counted_put_dict thr k t s : counted thr s -> counted thr (put_dict k t s).
Proof. intros H. split; [exact (c_next H)|exact (c_low H)|exact (c_sum H)|exact (c_high H)]. Qed.

Lemma ok_inj {A} (a b : A) : Ok a = Ok b -> a = b.
Proof. intros e. injection e as e. exact e. Qed.

Lemma counted_step thr s c : counted thr s -> counted thr (step thr s c).
Proof.
  intros H. unfold step. destruct (exec thr s c) as [s'|] eqn:E; [|exact H].
  destruct c as [d|d ops|o|o g|o k v|o g p|o g|o child|o|o]; cbn [exec] in E.
  1, 2: injection E as <-; apply (counted_same H); try reflexivity; unfold freed_by, create; cbn [objs next];
    [lia|intros x h; rewrite upd_other by lia; apply (c_next H); lia|intros x h; now rewrite upd_other by lia|].
  1, 2: intros x h; destruct (Nat.eq_dec x (next s)) as [->|n];
    [now rewrite upd_same|rewrite (upd_other _ _ n); now rewrite (c_next H h)].
  - unfold copy in E. destruct (objs s o) as [[f|l]|] eqn:e; [| |discriminate E]; injection E as <-; apply counted_alloc; try exact H.
    + intros f' h. injection h as <-. reflexivity.
    + intros f' h. discriminate h.
  - unfold wrap in E. destruct (objs s o) as [[f|l]|] eqn:e; try discriminate E. injection E as <-.
    apply counted_put_dict, counted_alloc; [exact H|]. intros f' h. discriminate h.
  - unfold assign in E. destruct (objs s o) as [[f|l]|] eqn:e; try discriminate E. injection E as <-. exact (counted_put _ H e).
  - unfold set_rule in E. destruct (objs s o) as [[f|l]|] eqn:e; try discriminate E. injection E as <-. now apply counted_put_dict.
  - unfold del_rule in E. destruct (objs s o) as [[f|l]|] eqn:e; try discriminate E.
    destruct (dicts s (rules l) g); [|discriminate E]. injection E as <-. now apply counted_put_dict.
  - unfold associate in E. destruct (objs s o) as [[f|l]|] eqn:e; try discriminate E.
    destruct (links l) as [q|] eqn:L; [injection E as <-; exact H|]. cbv zeta in E.
    set (t := resolve _ _) in E. clearbody t. injection E as <-.
    assert (ho : (o < next s)%nat).
    { destruct (Nat.lt_ge_cases o (next s)) as [h|h]; [exact h|]. rewrite (c_next H h) in e. discriminate e. }
    apply (counted_same H); try reflexivity; unfold freed_by; cbn [objs next].
    + lia.
    + intros x h. destruct (Nat.eqb_spec x o) as [|_]; [lia|]. destruct (Nat.ltb_spec x (next s)) as [|_]; [lia|].
      destruct (slot_at (x - next s)) as [g|] eqn:es; [|reflexivity].
      apply slot_at_inv in es. pose proof (slot_number_lt g). lia.
    + intros x h. destruct (Nat.eqb_spec x o) as [->|_]; [now rewrite e|]. apply Nat.ltb_lt in h. now rewrite h.
    + intros x h. destruct (Nat.eqb_spec x o) as [|_]; [lia|]. destruct (Nat.ltb_spec x (next s)) as [|_]; [lia|].
      destruct (slot_at (x - next s)) as [g|]; [|reflexivity]. destruct (node_of t g) as [|h' c']; [reflexivity|].
      destruct (assoc_eq_dec g h'); reflexivity.
  - unfold square in E. destruct (objs s o) as [[f|l]|] eqn:e; try discriminate E.
    destruct (flags_of l Idempotent); injection E as <-; [|exact H]. apply counted_put_dict. exact (counted_put _ H e).
  - unfold delete in E. destruct (objs s o) as [[f|l]|] eqn:e; [| |discriminate E].
    + injection E as <-. now apply counted_kill.
    + destruct (links l) as [q|]; [|injection E as <-; now apply counted_kill].
      destruct (objs s (qI q)) as [[f|li]|]; try discriminate E. destruct (links li) as [qi|]; [|discriminate E].
      apply ok_inj in E. rewrite <- E. exact (counted_kills _ H).
Qed.

Lemma counted_run thr cs s : counted thr s -> counted thr (run thr cs s).
Proof.
  revert s. induction cs as [|c cs IH]; intros s H; [exact H|]. cbn [run fold_left]. apply IH. now apply counted_step.
Qed.
Lemma counted_start thr : counted thr start.
Proof. split; cbn [start objs next counter collected]; try reflexivity; [intros h; exact h|constructor]. Qed.

(** ** Small histories *)
Definition fl (ks : list flag) (noncomplex : bool) : flags := deduce (fold_left (fun f k => set_flag k f) ks default_flags) noncomplex.
Definition thing (f : flags) (methods : assoc -> bool) (bytes : nat) : desc :=
  {| d_flags := f; d_has := methods; d_size := bytes; d_attrs := fun o k => if (k =? 0)%nat then Some (Bound 7 o) else None |}.
Definition plain (ks : list flag) : desc := thing (fl ks true) (fun g => match g with aT => true | _ => false end) 8.
Definition kids (g : assoc) : desc := thing (fl [Linear] true) (fun _ => false) 0.

Lemma sound_fl ks nc : coherent (fl ks nc) = true -> sound (fl ks nc).
Proof. intros h. unfold sound. exists (fold_left (fun f k => set_flag k f) ks default_flags), nc. split; [reflexivity|exact h]. Qed.

(** A = Operator(...); A.T; B = A.copy(); B.T *)
Definition history1 : list cmd := [CNew (plain [Linear]); CAssociate 0 kids; CCopy 0; CAssociate 8 kids].
Lemma ordinary1 : Forall ordinary history1.
Proof.
  repeat constructor; try (intros g); apply sound_fl; vm_compute; reflexivity.
Qed.

Lemma copy_rules_refuted : exists cs s l,
  s = run 100 [CNew (plain [Linear])] start /\ objs s 0%nat = Some (Live l) /\
  cs = [CCopy 0; CSetRule 1 aT PNew] /\ Forall ordinary cs /\ Forall (on_new (next s)) cs /\
  dicts s (rules l) aT = None /\ dicts (run 100 cs s) (rules l) aT = Some PNew.
Proof.
  eexists. eexists. eexists. split; [reflexivity|]. split; [vm_compute; reflexivity|]. split; [reflexivity|].
  split; [repeat constructor|]. split; [|split; vm_compute; reflexivity].
  constructor; [intros z h; discriminate h|]. constructor; [|constructor].
  intros z h. injection h as <-. vm_compute. lia.
Qed.

Lemma wrap_flags_refuted : exists s s' l,
  s = run 100 [CNew (plain [Linear]); CAssociate 0 kids] start /\
  s' = run 100 [CNew (plain [Linear]); CWrap 0 (Some (fl [Linear; Symmetric] true)); CAssociate 0 kids] start /\
  objs s' 0%nat = Some (Live l) /\ flags_of l Symmetric = false /\
  chain s 0 [AT] <> Some 0%nat /\ chain s' 0 [AT] = Some 0%nat.
Proof.
  eexists. eexists. eexists. split; [reflexivity|]. split; [reflexivity|]. split; [vm_compute; reflexivity|].
  split; [vm_compute; reflexivity|]. split; [vm_compute; discriminate|vm_compute; reflexivity].
Qed.

(** The table of associated operators of A + 0. *)
Definition zero_table : table :=
  resolve (init_rules (fl [Linear; Involutary] true) (fun _ => None))
    (generate (fl [Linear; Square] true) (fun g => match g with aC | aI => true | _ => false end)
       (fun g => match g with aT => true | _ => false end)).

Lemma zero_refuted : exists s,
  s = run 100 [CNew (plain [Linear; Involutary]); CWrap 0 (Some (fl [Linear; Square] true)); CAssociate 1 kids] start /\
  chain s 1 [AT] = Some (2 + slot_number aIT)%nat /\ nIT zero_table = New aIT SNone /\ nT zero_table = New aT (SMethod aT) /\
  chain s 1 [AT; AI] <> chain s 1 [AI; AT].
Proof.
  eexists. split; [reflexivity|]. split; [vm_compute; reflexivity|]. split; [vm_compute; reflexivity|].
  split; [vm_compute; reflexivity|]. vm_compute. discriminate.
Qed.

Lemma square_refuted : exists s t,
  s = run 100 [CNew (plain [Linear; Idempotent]); CAssociate 0 kids] start /\ chain s 0 [AT] = Some t /\
  (let s1 := run 100 [CSquare 0; CAssociate 0 kids] s in
   chain s1 t [AT] = Some 0%nat /\ chain s1 0 [AT] <> Some t) /\
  (let s2 := run 100 [CSquare 0; CDelete 0] s in alive s2 t /\ chain s2 t [AT] = Some 0%nat /\ deleted s2 0).
Proof.
  eexists. exists 2%nat. split; [reflexivity|]. split; [vm_compute; reflexivity|]. split.
  - cbv zeta. split; [vm_compute; reflexivity|vm_compute; discriminate].
  - cbv zeta. split; [eexists; vm_compute; reflexivity|]. split; [vm_compute; reflexivity|].
    exists 8%nat. vm_compute. reflexivity.
Qed.

Lemma operands_refuted : exists s s' l,
  s = run 100 [CNew (plain [Linear]); CNew (plain [Linear]); CComposite (plain [Linear]) [0; 1]%nat] start /\
  s' = run 100 [CDelete 0] s /\
  objs s' 2%nat = Some (Live l) /\ In 0%nat (operands l) /\ deleted s' 0.
Proof.
  eexists. eexists. eexists. split; [reflexivity|]. split; [reflexivity|]. split; [vm_compute; reflexivity|].
  split; [now left|]. exists 8%nat. vm_compute. reflexivity.
Qed.

(** The bytes of the operands are counted when the composite is deleted, and again when they are. *)
Lemma twice_refuted : exists s, 
  s = run 100 [CNew (plain [Linear]); CNew (plain [Linear]); CComposite (plain [Linear]) [0; 1]%nat;
               CDelete 2; CDelete 0; CDelete 1] start /\ counter s = 32%nat.
Proof. eexists. split; [reflexivity|vm_compute; reflexivity]. Qed.

Lemma independent_case :
  let s := run 100 [CNew (plain [Linear]); CAssociate 0 kids] start in
  let cs' := [CCopy 0; CAssign 8 3 (Plain 5); CAssociate 8 kids; CDelete 8] in
  Forall ordinary cs' /\ Forall (fun c => forall z, target c = Some z -> (next s <= z)%nat) cs' /\
  Forall (fun c => ~ writes_rules c) cs' /\ deleted (run 100 cs' s) 8 /\ alive (run 100 cs' s) 0.
Proof.
  cbv zeta. split; [repeat constructor; intros g; apply sound_fl; vm_compute; reflexivity|].
  split.
  { repeat constructor; intros z h; try discriminate h; injection h as <-; vm_compute; lia. }
  split; [repeat constructor; intros []|].
  split; [exists 8%nat; vm_compute; reflexivity|eexists; vm_compute; reflexivity].
Qed.
