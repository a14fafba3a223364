(** Lemmas for C46. *)
From Coq Require Import QArith Qpower Permutation Lqa.
From Verif Require Import Base DtypeModel DtypeSpec.
Close Scope Q_scope. Local Open Scope nat_scope.

Definition norm (t : dtype) : dtype := Dt (d_kind t) (d_size t) true.
Definition all_types : list dtype := map (fun p => Dt (fst p) (snd p) true) numeric_types.
Lemma norm_in t : numeric t <-> In (norm t) all_types.
Proof. unfold numeric, all_types, norm. rewrite in_map_iff. split; [intros H; exists (d_kind t, d_size t); split; [reflexivity|exact H]|]. intros ([k n] & E & H). injection E as <- <-. exact H. Qed.
Lemma norm_cast s t : can_cast (norm s) (norm t) = can_cast s t. Proof. reflexivity. Qed.
Lemma kind_eqb_iff a b : kind_eqb a b = true <-> a = b. Proof. destruct a, b; cbn; split; congruence. Qed.
Lemma dtype_eqb_iff s t : dtype_eqb s t = true <-> s = t.
Proof.
  unfold dtype_eqb. destruct s as [k n b], t as [k' n' b']. cbn. rewrite !Bool.andb_true_iff, kind_eqb_iff, Nat.eqb_eq, Bool.eqb_true_iff. split; [intros [[-> ->] ->]; reflexivity|intros E; injection E as -> -> ->; auto].
Qed.
Lemma all2 (f : dtype -> dtype -> bool) : forallb (fun a => forallb (f a) all_types) all_types = true -> forall s t, numeric s -> numeric t -> f (norm s) (norm t) = true.
Proof. intros H s t Hs Ht. rewrite forallb_forall in H. specialize (H _ (proj1 (norm_in s) Hs)). rewrite forallb_forall in H. exact (H _ (proj1 (norm_in t) Ht)). Qed.
Lemma all3 (f : dtype -> dtype -> dtype -> bool) : forallb (fun a => forallb (fun b => forallb (f a b) all_types) all_types) all_types = true -> forall s t u, numeric s -> numeric t -> numeric u -> f (norm s) (norm t) (norm u) = true.
Proof. intros H s t u Hs Ht Hu. rewrite forallb_forall in H. specialize (H _ (proj1 (norm_in s) Hs)). exact (all2 (f (norm s)) H t u Ht Hu). Qed.
Lemma cast_refl t : numeric t -> can_cast t t = true.
Proof. intros H. exact (all2 (fun a _ => can_cast a a) eq_refl t t H H). Qed.
Lemma cast_trans s t u : numeric s -> numeric t -> numeric u -> can_cast s t = true -> can_cast t u = true -> can_cast s u = true.
Proof.
  intros Hs Ht Hu A B. pose proof (all3 (fun a b c => implb (can_cast a b && can_cast b c) (can_cast a c)) eq_refl s t u Hs Ht Hu) as F. cbv beta in F. rewrite !norm_cast, A, B in F. exact F.
Qed.
Lemma cast_antisym s t : numeric s -> numeric t -> can_cast s t = true -> can_cast t s = true -> norm s = norm t.
Proof.
  intros Hs Ht A B. pose proof (all2 (fun a b => implb (can_cast a b && can_cast b a) (dtype_eqb a b)) eq_refl s t Hs Ht) as F. cbv beta in F. rewrite !norm_cast, A, B in F. apply dtype_eqb_iff. exact F.
Qed.

(** The first type of the list *)
Definition first_type (l : list dtype) : option dtype := find (fun t => forallb (fun s => can_cast s t) l) test_types.
Definition top : dtype := Dt Complex_ 32 true.
Lemma cast_top t : numeric t -> can_cast t top = true.
Proof. intros H. exact (all2 (fun a b => can_cast a top) eq_refl t t H H). Qed.
Lemma find_split {A} (f : A -> bool) l x : find f l = Some x -> exists l1 l2, l = l1 ++ x :: l2 /\ f x = true /\ forall y, In y l1 -> f y = false.
Proof.
  induction l as [|a l IH]; intros H; [discriminate|]. cbn in H. destruct (f a) eqn:E.
  - injection H as ->. exists [], l. split; [reflexivity|]. split; [exact E|intros y []].
  - destruct (IH H) as (l1 & l2 & -> & Hx & Hl). exists (a :: l1), l2. split; [reflexivity|]. split; [exact Hx|]. intros y [<-|Hy]; [exact E|apply Hl, Hy].
Qed.
(** The list is a linear extension of the order: a type that can be converted to another comes first. *)
Definition linear : list dtype -> bool := fix linear l := match l with [] => true | t :: l => forallb (fun u => implb (can_cast u t) (dtype_eqb u t)) l && linear l end.
Lemma linear_app l1 : forall t l2, linear (l1 ++ t :: l2) = true -> forall u, In u l2 -> can_cast u t = true -> u = t.
Proof.
  induction l1 as [|a l1 IH]; intros t l2 H u Hu Hc; cbn in H; apply andb_prop in H; destruct H as [H1 H2]; [|exact (IH t l2 H2 u Hu Hc)].
  rewrite forallb_forall in H1. specialize (H1 u Hu). rewrite Hc in H1. apply dtype_eqb_iff, H1.
Qed.
Lemma in_test t : numeric t -> In (norm t) test_types.
Proof.
  intros H. pose proof (all2 (fun a b => existsb (dtype_eqb a) test_types) eq_refl t t H H) as F. cbv beta in F. apply existsb_exists in F. destruct F as (x & Hx & E). apply dtype_eqb_iff in E. rewrite E. exact Hx.
Qed.
Lemma test_numeric t : In t test_types -> d_kind t <> Object_ -> numeric t /\ norm t = t.
Proof. intros H N. cbn in H. repeat (destruct H as [<-|H]; [try (split; [cbn; tauto|reflexivity]); exfalso; apply N; reflexivity|]). destruct H. Qed.
Lemma first_type_ok l : Forall numeric l -> exists t, first_type l = Some t /\ numeric t /\ norm t = t /\ (forall s, In s l -> can_cast s t = true) /\
  forall u, numeric u -> (forall s, In s l -> can_cast s u = true) -> can_cast u t = true -> norm u = t.
Proof.
  intros F. unfold first_type. destruct (find _ test_types) as [t|] eqn:E.
  2:{ exfalso. pose proof (find_none _ _ E top (in_test top ltac:(cbn; tauto))) as N. cbv beta in N. assert (X : forallb (fun s => can_cast s top) l = true); [|congruence]. apply forallb_forall. intros s Hs. apply cast_top. exact (proj1 (Forall_forall _ _) F s Hs). }
  destruct (find_split _ _ _ E) as (l1 & l2 & El & Ht & Hl). assert (N : d_kind t <> Object_).
  { intros K. assert (In top l1) as Hi.
    - assert (In t test_types) as It by (rewrite El; apply in_or_app; right; left; reflexivity). cbn in It. repeat (destruct It as [<-|It]; [try discriminate K|]); [|destruct It].
      assert (In top (l1 ++ Dt Object_ 8 true :: l2)) as Hi by (rewrite <- El; cbn; tauto). apply in_app_or in Hi. destruct Hi as [Hi|[Hi|Hi]]; [exact Hi|discriminate Hi|].
      assert (LN : linear test_types = true) by reflexivity. rewrite El in LN. pose proof (linear_app _ _ _ LN top Hi eq_refl) as X. discriminate X.
    - pose proof (Hl top Hi) as X. cbv beta in X. assert (Y : forallb (fun s => can_cast s top) l = true); [|congruence]. apply forallb_forall. intros s Hs. apply cast_top. exact (proj1 (Forall_forall _ _) F s Hs). }
  assert (In t test_types) as It by (rewrite El; apply in_or_app; right; left; reflexivity). destruct (test_numeric t It N) as [Nt Et].
  exists t. split; [reflexivity|]. split; [exact Nt|]. split; [exact Et|]. split; [exact (proj1 (forallb_forall _ _) Ht)|].
  intros u Nu Hu Hc. pose proof (in_test u Nu) as Hi. rewrite El in Hi. apply in_app_or in Hi. destruct Hi as [Hi|[Hi|Hi]].
  - pose proof (Hl _ Hi) as X. cbv beta in X. assert (Y : forallb (fun s => can_cast s (norm u)) l = true); [|congruence]. apply forallb_forall. exact Hu.
  - symmetry. exact Hi.
  - assert (LN : linear test_types = true) by reflexivity. rewrite El in LN. apply (linear_app _ _ _ LN (norm u) Hi). exact Hc.
Qed.
Lemma first_type_ext l l' : (forall t, In t test_types -> forallb (fun s => can_cast s t) l = forallb (fun s => can_cast s t) l') -> first_type l = first_type l'.
Proof. intros H. unfold first_type. induction test_types as [|t ts IH]; [reflexivity|]. cbn [find]. rewrite H by (left; reflexivity). rewrite IH by (intros u Hu; apply H; right; exact Hu). reflexivity. Qed.

(** ** Types that do not mix signed and unsigned integers *)
Definition unmixedb (l : list dtype) : bool := forallb (fun t => negb (kind_eqb (d_kind t) UInt_)) l || forallb (fun t => negb (kind_eqb (d_kind t) Int_)) l.
Lemma unmixedb_iff l : unmixedb l = true <-> unmixed l.
Proof.
  unfold unmixedb, unmixed. rewrite Bool.orb_true_iff, !forallb_forall.
  assert (G : forall k, (forall t, In t l -> negb (kind_eqb (d_kind t) k) = true) <-> (forall t, In t l -> d_kind t <> k)).
  { intros k. split; intros H t Ht; specialize (H t Ht).
    - intros E. rewrite E in H. assert (kind_eqb k k = true) as X by (apply kind_eqb_iff; reflexivity). rewrite X in H. discriminate H.
    - destruct (kind_eqb (d_kind t) k) eqn:E; [|reflexivity]. apply kind_eqb_iff in E. contradiction. }
  rewrite (G UInt_), (G Int_). reflexivity.
Qed.
(** the least upper bound of two types *)
Definition joinb (a b u : dtype) : bool := match first_type [a; b] with Some t => implb (unmixedb [a; b] && can_cast a u && can_cast b u) (can_cast t u) && implb (unmixedb [a; b]) ((kind_eqb (d_kind t) (d_kind a) || kind_eqb (d_kind t) (d_kind b) || negb (kind_eqb (d_kind t) UInt_ || kind_eqb (d_kind t) Int_))) | None => false end.
Lemma join_ok : forallb (fun a => forallb (fun b => forallb (joinb a b) all_types) all_types) all_types = true. Proof. vm_compute. reflexivity. Qed.
Lemma first_norm l : first_type (map norm l) = first_type l.
Proof. apply first_type_ext. intros t _. induction l as [|a l IH]; [reflexivity|]. cbn [map forallb]. rewrite IH. reflexivity. Qed.
Lemma join_least a b t : numeric a -> numeric b -> unmixed [a; b] -> first_type [a; b] = Some t -> forall u, numeric u -> can_cast a u = true -> can_cast b u = true -> can_cast t u = true.
Proof.
  intros Ha Hb Hm E u Hu A B. pose proof (all3 joinb join_ok a b u Ha Hb Hu) as F. unfold joinb in F. change [norm a; norm b] with (map norm [a; b]) in F; rewrite (first_norm [a; b]), E in F; cbn [map] in F. change (unmixedb [norm a; norm b]) with (unmixedb [a; b]) in F.
  rewrite (proj2 (unmixedb_iff _) Hm) in F. rewrite !norm_cast, A, B in F. apply andb_prop in F. exact (proj1 F).
Qed.
Lemma join_kind a b t : numeric a -> numeric b -> unmixed [a; b] -> first_type [a; b] = Some t -> d_kind t = d_kind a \/ d_kind t = d_kind b \/ (d_kind t <> UInt_ /\ d_kind t <> Int_).
Proof.
  intros Ha Hb Hm E. pose proof (all3 joinb join_ok a b a Ha Hb Ha) as F. unfold joinb in F. change [norm a; norm b] with (map norm [a; b]) in F; rewrite (first_norm [a; b]), E in F; cbn [map] in F. change (unmixedb [norm a; norm b]) with (unmixedb [a; b]) in F.
  rewrite (proj2 (unmixedb_iff _) Hm) in F. apply andb_prop in F. destruct F as [_ F]. cbn [implb] in F. apply Bool.orb_true_iff in F. destruct F as [F|F].
  - apply Bool.orb_true_iff in F. rewrite !kind_eqb_iff in F. destruct F as [F|F]; [left; exact F|right; left; exact F].
  - right; right. destruct (d_kind t); cbn in F; try discriminate F; split; discriminate.
Qed.
Lemma unmixed_sub l l' : (forall t, In t l' -> In t l) -> unmixed l -> unmixed l'.
Proof. intros H [U|U]; [left|right]; intros t Ht; apply U, H, Ht. Qed.
(** the least type of a list *)
Lemma first_least l : l <> [] -> Forall numeric l -> unmixed l -> exists t, first_type l = Some t /\ numeric t /\ norm t = t /\ (forall s, In s l -> can_cast s t = true) /\
  (forall u, numeric u -> (forall s, In s l -> can_cast s u = true) -> can_cast t u = true) /\ ((exists s, In s l /\ d_kind t = d_kind s) \/ (d_kind t <> UInt_ /\ d_kind t <> Int_)).
Proof.
  intros N F U. destruct (first_type_ok l F) as (t & E & Nt & Et & Ub & Mi). exists t. split; [exact E|]. split; [exact Nt|]. split; [exact Et|]. split; [exact Ub|].
  (* some least type exists *)
  assert (G : exists u, numeric u /\ norm u = u /\ (forall s, In s l -> can_cast s u = true) /\ (forall w, numeric w -> (forall s, In s l -> can_cast s w = true) -> can_cast u w = true) /\
              ((exists s, In s l /\ d_kind u = d_kind s) \/ (d_kind u <> UInt_ /\ d_kind u <> Int_))).
  { clear E Ub Mi. induction l as [|a l IH]; [contradiction|]. pose proof (Forall_inv F) as Na. pose proof (Forall_inv_tail F) as Fl. destruct l as [|b l].
    - exists (norm a). split; [exact Na|]. split; [reflexivity|]. split; [intros s [<-|[]]; exact (cast_refl a Na)|]. split; [intros w _ Hw; exact (Hw a (or_introl eq_refl))|]. left. exists a. split; [left; reflexivity|reflexivity].
    - destruct IH as (u & Nu & Eu & Ubu & Lu & Ku); [discriminate|exact Fl|exact (unmixed_sub (a :: b :: l) (b :: l) (fun s Hs => or_intror Hs) U)|].
      assert (Um : unmixed [a; u]).
      { destruct Ku as [(s & Hs & Ek)|[K1 K2]]; destruct U as [U|U]; [left|right|left|right]; intros w [<-|[<-|[]]]; first [exact (U a (or_introl eq_refl))|rewrite Ek; exact (U s (or_intror Hs))|assumption]. }
      destruct (first_type_ok [a; u]) as (w & Ew & Nw & Ew' & Ubw & _); [constructor; [exact Na|constructor; [exact Nu|constructor]]|].
      exists w. split; [exact Nw|]. split; [exact Ew'|]. split; [|split].
      + intros s [<-|Hs]; [exact (Ubw a (or_introl eq_refl))|]. apply (cast_trans s u w); [exact (proj1 (Forall_forall _ _) Fl s Hs)|exact Nu|exact Nw|exact (Ubu s Hs)|]. exact (Ubw u (or_intror (or_introl eq_refl))).
      + intros v Nv Hv. apply (join_least a u w Na Nu Um Ew v Nv); [exact (Hv a (or_introl eq_refl))|]. apply Lu; [exact Nv|]. intros s Hs. exact (Hv s (or_intror Hs)).
      + destruct (join_kind a u w Na Nu Um Ew) as [K|[K|K]]; [left; exists a; split; [left; reflexivity|exact K]| |right; exact K].
        destruct Ku as [(s & Hs & Ek)|Ku]; [left; exists s; split; [right; exact Hs|congruence]|right; rewrite K; exact Ku]. }
  destruct G as (u & Nu & Eu & Ubu & Lu & Ku). assert (u = t) as <-. { rewrite <- Eu. apply Mi; [exact Nu|exact Ubu|]. apply Lu; [exact Nt|exact Ub]. }
  split; [exact Lu|exact Ku].
Qed.

(** ** Common types *)
Lemma common_unfold l : common_type l = match somes l with [] => None | [t] => Some t | _ => first_type (somes l) end.
Proof. unfold common_type. destruct (somes l) as [|a [|b r]]; reflexivity. Qed.
Lemma somes_app {A} (l l' : list (option A)) : somes (l ++ l') = somes l ++ somes l'. Proof. apply flat_map_app. Qed.
Lemma somes_map {A} (l : list A) : somes (map Some l) = l. Proof. induction l as [|a l IH]; [reflexivity|]. cbn. f_equal. exact IH. Qed.
Lemma common_some l : Forall numeric (somes l) -> somes l <> [] -> exists t, common_type l = Some t /\ numeric t /\ (forall s, In s (somes l) -> can_cast s t = true) /\
  (forall u, numeric u -> (forall s, In s (somes l) -> can_cast s u = true) -> can_cast u t = true -> norm u = norm t).
Proof.
  rewrite common_unfold. destruct (somes l) as [|a [|b r]] eqn:E; intros F N; [contradiction| |].
  - exists a. split; [reflexivity|]. pose proof (Forall_inv F) as Na. split; [exact Na|]. split; [intros s [<-|[]]; apply cast_refl, Na|]. intros u Nu Hu Hc. apply cast_antisym; [exact Nu|exact Na|exact Hc|]. apply Hu. left. reflexivity.
  - destruct (first_type_ok _ F) as (t & Et & Nt & Ht & Ub & Mi). exists t. split; [exact Et|]. split; [exact Nt|]. split; [exact Ub|]. intros u Nu Hu Hc. rewrite Ht. apply Mi; assumption.
Qed.
Lemma common_least l : Forall numeric (somes l) -> somes l <> [] -> unmixed (somes l) -> exists t, common_type l = Some t /\ numeric t /\ (forall u, numeric u -> (forall s, In s (somes l) -> can_cast s u = true) -> can_cast t u = true) /\
  ((exists s, In s (somes l) /\ d_kind t = d_kind s) \/ (d_kind t <> UInt_ /\ d_kind t <> Int_)).
Proof.
  rewrite common_unfold. destruct (somes l) as [|a [|b r]] eqn:E; intros F N U; [contradiction| |].
  - exists a. split; [reflexivity|]. split; [exact (Forall_inv F)|]. split; [intros u _ Hu; apply Hu; left; reflexivity|left; exists a; split; [left; reflexivity|reflexivity]].
  - destruct (first_least _ N F U) as (t & Et & Nt & _ & _ & L & Kt). exists t. split; [exact Et|]. split; [exact Nt|]. split; [exact L|exact Kt].
Qed.
Lemma cast_object s t : d_kind t = Object_ -> can_cast s t = true. Proof. unfold can_cast. intros ->. destruct (d_kind s); reflexivity. Qed.
Lemma common_assoc l1 l2 : Forall numeric (somes (l1 ++ l2)) -> unmixed (somes (l1 ++ l2)) -> common_type (common_type l1 :: l2) = common_type (l1 ++ l2).
Proof.
  rewrite somes_app. intros F U. apply Forall_app in F. destruct F as [F1 F2]. rewrite !common_unfold, somes_app. destruct (somes l1) as [|a [|b r]] eqn:E1.
  - reflexivity.
  - cbn. reflexivity.
  - destruct (first_least (a :: b :: r) ltac:(discriminate) F1 (unmixed_sub _ _ (fun t Ht => in_or_app _ _ _ (or_introl Ht)) U)) as (t & Et & Nt & _ & Ub & L & _). rewrite Et.
    change (somes (Some t :: l2)) with (t :: somes l2). destruct (somes l2) as [|c r2] eqn:E2; [cbn [app]; rewrite app_nil_r; symmetry; exact Et|].
    change ((a :: b :: r) ++ c :: r2) with (a :: b :: r ++ c :: r2). change (first_type (t :: c :: r2) = first_type ((a :: b :: r) ++ c :: r2)). set (r1 := a :: b :: r) in *. set (r3 := c :: r2) in *.
    apply first_type_ext. intros u Hu. rewrite forallb_app. cbn [forallb]. f_equal. apply Bool.eq_iff_eq_true. rewrite forallb_forall. destruct (d_kind u) eqn:Ku.
    6:{ split; intros _; [intros s _|]; apply cast_object, Ku. }
    all: assert (numeric u) as Nu by (apply test_numeric; [exact Hu|rewrite Ku; discriminate]); split; intros H; [intros s Hs; apply (cast_trans s t u); [exact (proj1 (Forall_forall _ _) F1 s Hs)|exact Nt|exact Nu|exact (Ub s Hs)|exact H]|apply L; assumption].
Qed.
Lemma forallb_perm {A} (f : A -> bool) l l' : Permutation l l' -> forallb f l = forallb f l'.
Proof. intros H. apply Bool.eq_iff_eq_true. rewrite !forallb_forall. split; intros G x Hx; apply G; [apply Permutation_sym in H|]; exact (Permutation_in _ H Hx). Qed.
Lemma somes_perm {A} (l l' : list (option A)) : Permutation l l' -> Permutation (somes l) (somes l').
Proof. intros H. apply Permutation_flat_map, H. Qed.
Lemma common_perm l l' : Permutation l l' -> common_type l = common_type l'.
Proof.
  intros H. apply somes_perm in H. rewrite !common_unfold. pose proof (Permutation_length H) as L. destruct (somes l) as [|a [|b r]] eqn:E, (somes l') as [|a' [|b' r']] eqn:E'; try discriminate L; [reflexivity| |].
  - apply Permutation_length_1 in H. congruence.
  - apply first_type_ext. intros t _. apply forallb_perm, H.
Qed.
(** Composing with types that are already included *)
Lemma common_keep t d : numeric t -> numeric d -> can_cast d t = true -> norm t = t -> common_type [Some t; Some d] = Some t.
Proof.
  intros Nt Nd C E. rewrite common_unfold. change (somes [Some t; Some d]) with [t; d]. cbv iota. destruct (first_type_ok [t; d]) as (u & Eu & Nu & _ & Ub & Mi); [constructor; [exact Nt|constructor; [exact Nd|constructor]]|]. rewrite Eu. f_equal.
  rewrite <- (Mi t Nt); [exact E|intros s [<-|[<-|[]]]; [apply cast_refl, Nt|exact C]|apply Ub; left; reflexivity].
Qed.
Lemma get_dtypes_same t ds : numeric t -> Forall numeric (somes ds) -> (forall s, In s (somes ds) -> can_cast s t = true) -> (somes ds = [] \/ norm t = t) -> get_dtypes t ds = map (fun _ => Some t) ds.
Proof.
  intros Nt. induction ds as [|d ds IH]; intros F C E; [reflexivity|]. cbn [get_dtypes map]. assert (X : common_type [Some t; d] = Some t).
  { destruct d as [d|]; [|reflexivity]. destruct E as [E|E]; [discriminate E|]. apply common_keep; [exact Nt|exact (Forall_inv F)|apply C; left; reflexivity|exact E]. }
  cbv zeta. rewrite X. f_equal. apply IH.
  - destruct d; [exact (Forall_inv_tail F)|exact F].
  - intros s Hs. apply C. destruct d; [right; exact Hs|exact Hs].
  - destruct d; [destruct E as [E|E]; [discriminate E|right; exact E]|exact E].
Qed.
(** The type of a call *)
Lemma call_type x ds : numeric x -> Forall numeric (somes ds) -> exists t, common_type [Some x; common_type ds] = Some t /\ numeric t /\ can_cast x t = true /\ (forall s, In s (somes ds) -> can_cast s t = true) /\ (somes ds = [] \/ norm t = t).
Proof.
  intros Nx F. destruct (somes ds) as [|a r] eqn:E.
  - assert (common_type ds = None) as -> by (rewrite common_unfold, E; reflexivity). exists x. split; [reflexivity|]. split; [exact Nx|]. split; [apply cast_refl, Nx|]. split; [intros s []|left; reflexivity].
  - destruct (common_some ds) as (c & Ec & Nc & Uc & _); [rewrite E; exact F|rewrite E; discriminate|]. rewrite Ec. rewrite common_unfold. change (somes [Some x; Some c]) with [x; c]. cbv iota.
    destruct (first_type_ok [x; c]) as (t & Et & Nt & Ht & Ub & _); [constructor; [exact Nx|constructor; [exact Nc|constructor]]|]. exists t. split; [exact Et|]. split; [exact Nt|]. split; [apply Ub; left; reflexivity|]. split; [|right; exact Ht].
    intros s Hs. apply (cast_trans s c t); [exact (proj1 (Forall_forall _ _) F s Hs)|exact Nc|exact Nt|apply Uc; rewrite E; exact Hs|apply Ub; right; left; reflexivity].
Qed.

Section Calls.
Context {V : Type} (astype : dtype -> V -> V) (add : dtype -> V -> V -> V).
Notation oper := (oper V).
Notation array := (array V).
Definition types (ops : list oper) := somes (map o_dtype ops).
Lemma apply_same t : forall (ops : list oper) v, apply_operands t v (combine ops (somes (map (fun _ => Some t) (map o_dtype ops)))) = fold_left (fun v o => o_direct o t t v) ops v.
Proof. induction ops as [|o ops IH]; intros v; [reflexivity|]. cbn. apply IH. Qed.
Lemma call_unfold (o : oper) x t : common_type [Some (a_dtype x); o_dtype o] = Some t -> call astype o x None = Ok (Array t (o_direct o t t (convert astype (a_dtype x) t (a_data x)))).
Proof. intros E. unfold call. rewrite E. reflexivity. Qed.
Lemma types_rev ops : Permutation (types ops) (types (rev ops)).
Proof. unfold types. apply somes_perm. rewrite map_rev. apply Permutation_rev. Qed.
Lemma composition_call ops x : numeric (a_dtype x) -> Forall numeric (types ops) -> exists t, common_type [Some (a_dtype x); common_type (map o_dtype ops)] = Some t /\ numeric t /\
  call astype (composition ops) x None = Ok (Array t (fold_right (fun o v => o_direct o t t v) (convert astype (a_dtype x) t (a_data x)) ops)).
Proof.
  intros Nx F. destruct (call_type (a_dtype x) (map o_dtype ops) Nx F) as (t & Et & Nt & Cx & Co & Ht). exists t. split; [exact Et|]. split; [exact Nt|]. rewrite (call_unfold (composition ops) x t Et). do 2 f_equal. unfold composition. cbn [o_direct].
  rewrite get_dtypes_same; [|exact Nt| | |].
  - rewrite apply_same. rewrite <- (rev_involutive ops) at 2. rewrite <- fold_left_rev_right, rev_involutive. reflexivity.
  - exact (Permutation_Forall (types_rev ops) F).
  - intros s Hs. apply Co. exact (Permutation_in s (Permutation_sym (types_rev ops)) Hs).
  - destruct Ht as [Ht|Ht]; [left|right; exact Ht]. pose proof (types_rev ops) as P. unfold types in P. rewrite Ht in P. apply Permutation_nil in P. exact P.
Qed.
Lemma addition_call o ops x : numeric (a_dtype x) -> Forall numeric (types (o :: ops)) -> exists t, common_type [Some (a_dtype x); common_type (map o_dtype (o :: ops))] = Some t /\ numeric t /\
  call astype (addition add o ops) x None = let v := convert astype (a_dtype x) t (a_data x) in Ok (Array t (fold_left (add t) (map (fun o => o_direct o t t v) ops) (o_direct o t t v))).
Proof.
  intros Nx F. destruct (call_type (a_dtype x) (map o_dtype (o :: ops)) Nx F) as (t & Et & Nt & Cx & Co & Ht). exists t. split; [exact Et|]. split; [exact Nt|]. rewrite (call_unfold (addition add o ops) x t Et). do 2 f_equal. unfold addition. cbn [o_direct].
  generalize (o_direct o t t (convert astype (a_dtype x) t (a_data x))). clear. induction ops as [|o' ops IH]; intros w; [reflexivity|]. cbn [fold_left map]. apply IH.
Qed.

Context (Hf : faithful astype).
Lemma convert_refl t (v : V) : convert astype t t v = v.
Proof. unfold convert. assert (dtype_eqb t t = true) as -> by (apply dtype_eqb_iff; reflexivity). reflexivity. Qed.
Definition final (ops : list oper) (x : array) : option dtype := common_type (Some (a_dtype x) :: map o_dtype (rev ops)).
Lemma somes_cons x (ops : list oper) : somes (Some x :: map o_dtype (rev ops)) = x :: types (rev ops). Proof. reflexivity. Qed.
Lemma numeric_rev ops : Forall numeric (types ops) -> Forall numeric (types (rev ops)). Proof. intros F. exact (Permutation_Forall (types_rev ops) F). Qed.
Lemma types_cons o ops : Forall numeric (types (o :: ops)) -> Forall numeric (types ops).
Proof. unfold types. cbn [map]. destruct (o_dtype o); intros F; [exact (Forall_inv_tail F)|exact F]. Qed.
Lemma types_incl o ops s : In s (types ops) -> In s (types (o :: ops)).
Proof. unfold types. cbn [map]. destruct (o_dtype o); intros H; [right; exact H|exact H]. Qed.
Lemma unmixed_rev x ops : unmixed (x :: types ops) -> unmixed (x :: types (rev ops)).
Proof. apply unmixed_sub. intros s [Hs|Hs]; [left; exact Hs|right; exact (Permutation_in s (Permutation_sym (types_rev ops)) Hs)]. Qed.
Lemma one_by_one_call ops x : numeric (a_dtype x) -> Forall numeric (types ops) -> unmixed (a_dtype x :: types ops) -> Forall (compatible astype) ops ->
  exists t w, one_by_one astype ops x = Ok (Array t w) /\ final ops x = Some t /\ numeric t /\ can_cast (a_dtype x) t = true /\
    forall d, numeric d -> can_cast t d = true -> convert astype t d w = fold_right (fun o v => o_direct o d d v) (convert astype (a_dtype x) d (a_data x)) ops.
Proof.
  intros Nx F U Co. induction ops as [|o ops IH].
  - exists (a_dtype x), (a_data x). destruct x as [t v]. cbn. split; [reflexivity|]. split; [reflexivity|]. split; [exact Nx|]. split; [apply cast_refl, Nx|]. reflexivity.
  - destruct IH as (t & w & E & Ft & Nt & Cx & W); [exact (types_cons o ops F)| |exact (Forall_inv_tail Co)|].
    { apply (unmixed_sub (a_dtype x :: types (o :: ops))); [|exact U]. intros s [Hs|Hs]; [left; exact Hs|right; apply types_incl, Hs]. }
    assert (Nall : Forall numeric (somes ((Some (a_dtype x) :: map o_dtype (rev ops)) ++ [o_dtype o]))).
    { change (Forall numeric (a_dtype x :: somes (map o_dtype (rev ops) ++ [o_dtype o]))). constructor; [exact Nx|]. pose proof (numeric_rev (o :: ops) F) as G. unfold types in G. cbn [rev] in G. rewrite map_app in G. exact G. }
    assert (Uall : unmixed (somes ((Some (a_dtype x) :: map o_dtype (rev ops)) ++ [o_dtype o]))).
    { pose proof (unmixed_rev _ _ U) as G. unfold types in G. cbn [rev] in G. rewrite map_app in G. exact G. }
    pose proof (common_assoc _ _ Nall Uall) as A. change (common_type (Some (a_dtype x) :: map o_dtype (rev ops))) with (final ops x) in A. rewrite Ft in A.
    destruct (common_some [Some t; o_dtype o]) as (t' & Et & Nt' & Ub & _).
    { change (Forall numeric (t :: types [o])). constructor; [exact Nt|]. unfold types in *. cbn [map] in F |- *. destruct (o_dtype o); [constructor; [exact (Forall_inv F)|constructor]|constructor]. }
    { discriminate. }
    exists t', (o_direct o t' t' (convert astype t t' w)). assert (Ct : can_cast t t' = true) by (apply Ub; left; reflexivity). split; [|split; [|split; [exact Nt'|split]]].
    + cbn [one_by_one]. rewrite E. cbn [rbind]. apply call_unfold. exact Et.
    + unfold final. cbn [rev]. rewrite map_app. rewrite <- Et. symmetry. exact A.
    + exact (cast_trans _ t t' Nx Nt Nt' Cx Ct).
    + intros d Nd Cd. cbn [fold_right]. rewrite <- (Forall_inv Co t' d (convert astype t t' w) Cd). rewrite (Hf t t' d w Ct Cd). rewrite W; [reflexivity|exact Nd|]. exact (cast_trans t t' d Nt Nt' Nd Ct Cd).
Qed.
Lemma final_type ops x : numeric (a_dtype x) -> Forall numeric (types ops) -> unmixed (a_dtype x :: types ops) -> common_type [Some (a_dtype x); common_type (map o_dtype ops)] = final ops x.
Proof.
  intros Nx F U. rewrite (common_perm _ [common_type (map o_dtype ops); Some (a_dtype x)]) by apply perm_swap. rewrite common_assoc.
  - unfold final. apply common_perm. rewrite map_rev. apply Permutation_trans with (Some (a_dtype x) :: map o_dtype ops); [apply Permutation_sym, Permutation_cons_append|]. apply perm_skip, Permutation_rev.
  - rewrite somes_app. apply Forall_app. split; [exact F|]. constructor; [exact Nx|constructor].
  - rewrite somes_app. apply (unmixed_sub (a_dtype x :: types ops)); [|exact U]. intros s Hs. apply in_app_or in Hs. destruct Hs as [Hs|[<-|[]]]; [right; exact Hs|left; reflexivity].
Qed.
Lemma composition_one_by_one ops x : numeric (a_dtype x) -> Forall numeric (types ops) -> unmixed (a_dtype x :: types ops) -> Forall (compatible astype) ops -> call astype (composition ops) x None = one_by_one astype ops x.
Proof.
  intros Nx F U Co. destruct (composition_call ops x Nx F) as (t & Et & Nt & E). rewrite E. destruct (one_by_one_call ops x Nx F U Co) as (t' & w & E' & Ft & Nt' & _ & W). rewrite E'. rewrite final_type in Et by assumption. assert (t' = t) as -> by congruence.
  do 2 f_equal. rewrite <- (W t Nt (cast_refl t Nt)). apply convert_refl.
Qed.
End Calls.

(** ** Exact conversions *)
Definition interval (t : dtype) : option (Z * Z) :=
  let bits := (8 * Z.of_nat (d_size t))%Z in match d_kind t with Bool_ => Some (0, 2)%Z | Int_ => Some (- 2 ^ (bits - 1), 2 ^ (bits - 1))%Z | UInt_ => Some (0, 2 ^ bits)%Z | _ => None end.
Definition format (t : dtype) : option nat := match d_kind t with Float_ => Some (d_size t) | Complex_ => Some (d_size t / 2) | _ => None end.
Definition inexactb (s t : dtype) : bool := (kind_eqb (d_kind s) Int_ || kind_eqb (d_kind s) UInt_) && (d_size s =? 8) && (kind_eqb (d_kind t) Float_ && (d_size t =? 8) || kind_eqb (d_kind t) Complex_ && (d_size t =? 16)).
Definition exactb (s t : dtype) : bool :=
  implb (can_cast s t && negb (inexactb s t))
    match interval s, format s, interval t, format t with
    | Some (lo, hi), _, Some (lo', hi'), _ => (lo' <=? lo)%Z && (hi <=? hi')%Z
    | Some (lo, hi), _, None, Some n => let '(p, l, h) := float_format n in (- 2 ^ p <? lo)%Z && (hi <=? 2 ^ p)%Z && (l <=? 0)%Z && (0 <=? h)%Z
    | None, Some m, None, Some n => let '(p, l, h) := float_format m in let '(p', l', h') := float_format n in (p <=? p')%Z && (l' <=? l)%Z && (h <=? h')%Z && (0 <=? p)%Z
    | _, _, _, _ => false
    end && implb (can_cast s t && kind_eqb (d_kind s) Complex_) (kind_eqb (d_kind t) Complex_).
Lemma exactb_ok : forallb (fun a => forallb (exactb a) all_types) all_types = true. Proof. vm_compute. reflexivity. Qed.
Lemma float_zero n : is_float n 0%Q.
Proof. unfold is_float. destruct (float_format n) as [[p l] h] eqn:E. exists 0%Z, 0%Z. unfold float_format in E. assert (H : (0 < 2 ^ p /\ l <= 0 <= h)%Z) by (destruct n as [|[|[|[|[|[|[|[|[|n]]]]]]]]]; injection E as <- <- <-; split; lia). split; [cbn; lia|]. split; [lia|]. rewrite Qmult_0_l. reflexivity. Qed.
Lemma is_integer_eq lo hi q q' : (q == q')%Q -> is_integer lo hi q -> is_integer lo hi q'. Proof. intros E (n & H & Hq). exists n. split; [exact H|]. rewrite <- E. exact Hq. Qed.
Lemma is_float_eq n q q' : (q == q')%Q -> is_float n q -> is_float n q'.
Proof. unfold is_float. destruct (float_format n) as [[p l] h]. intros E (m & e & H1 & H2 & Hq). exists m, e. split; [exact H1|]. split; [exact H2|]. rewrite <- E. exact Hq. Qed.
Lemma represents_real t z : match interval t with Some (lo, hi) => represents t z <-> is_integer lo hi (fst z) /\ (snd z == 0)%Q | None => True end.
Proof. unfold interval, represents. destruct (d_kind t); try exact I; reflexivity. Qed.
Lemma exact_ok s t z : numeric s -> numeric t -> can_cast s t = true -> ~ inexact s t -> represents s z -> represents t z.
Proof.
  intros Ns Nt C N R. pose proof (all2 exactb exactb_ok s t Ns Nt) as F. unfold exactb in F. rewrite norm_cast, C in F. apply andb_prop in F. destruct F as [F1 F2].
  assert (inexactb (norm s) (norm t) = false) as X.
  { destruct (inexactb (norm s) (norm t)) eqn:E; [|reflexivity]. exfalso. apply N. unfold inexactb in E. cbn [norm d_kind d_size] in E. rewrite !Bool.andb_true_iff, !Bool.orb_true_iff, !Bool.andb_true_iff, !kind_eqb_iff, !Nat.eqb_eq in E. unfold inexact. tauto. }
  rewrite X in F1. cbn [negb andb implb] in F1.
  change (interval (norm s)) with (interval s) in F1. change (interval (norm t)) with (interval t) in F1. change (format (norm s)) with (format s) in F1. change (format (norm t)) with (format t) in F1.
  pose proof (represents_real s z) as Rs. pose proof (represents_real t z) as Rt. destruct (interval s) as [[lo hi]|] eqn:Is.
  - apply Rs in R. destruct R as [(n & Hn & En) R2]. destruct (interval t) as [[lo' hi']|] eqn:It.
    + apply Rt. split; [|exact R2]. exists n. split; [lia|exact En].
    + destruct (format t) as [m|] eqn:Ft; [|discriminate F1]. assert (is_float m (fst z)) as H.
      { unfold is_float. destruct (float_format m) as [[p l] h]. exists n, 0%Z. split; [lia|]. split; [lia|]. rewrite En. change (Qpower 2 0) with 1%Q. rewrite Qmult_1_r. reflexivity. }
      unfold format in Ft. unfold represents. destruct (d_kind t); try discriminate Ft; injection Ft as <-; (split; [exact H|]); [exact R2|]. apply (is_float_eq _ 0%Q); [symmetry; exact R2|apply float_zero].
  - destruct (format s) as [m|] eqn:Fs; [|discriminate F1]. destruct (interval t) as [[lo' hi']|] eqn:It; [discriminate F1|]. destruct (format t) as [n|] eqn:Ft; [|discriminate F1].
    assert (G : forall q, is_float m q -> is_float n q).
    { unfold is_float. destruct (float_format m) as [[p l] h], (float_format n) as [[p' l'] h']. intros q (u & e & H1 & H2 & H3). exists u, e. split; [|split; [lia|exact H3]]. apply Z.lt_le_trans with (2 ^ p)%Z; [exact H1|]. apply Z.pow_le_mono_r; lia. }
    unfold format in Fs, Ft. unfold represents in *. cbn [norm d_kind] in F2. destruct (d_kind s) eqn:Ks; try discriminate Fs; injection Fs as <-; destruct (d_kind t) eqn:Kt; try discriminate Ft; injection Ft as <-; try discriminate F2; destruct R as [R1 R2]; (split; [apply G, R1|]).
    + exact R2.
    + apply (is_float_eq _ 0%Q); [symmetry; exact R2|apply float_zero].
    + apply G, R2.
Qed.

(** ** Sums *)
Lemma common_native l t : common_type l = Some t -> Forall numeric (somes l) -> (forall s, In s (somes l) -> norm s = s) -> norm t = t.
Proof.
  rewrite common_unfold. destruct (somes l) as [|a [|b r]]; intros E F H; [discriminate|injection E as <-; apply H; left; reflexivity|]. destruct (first_type_ok _ F) as (u & Eu & _ & Hu & _). congruence.
Qed.
Lemma common_pair_native x d t : numeric x -> norm x = x -> (forall d', d = Some d' -> numeric d') -> common_type [Some x; d] = Some t -> norm t = t.
Proof.
  intros Nx Hx Nd E. destruct d as [d|]; [|injection E as <-; exact Hx]. rewrite common_unfold in E. change (somes [Some x; Some d]) with [x; d] in E. cbv iota in E. destruct (first_type_ok [x; d]) as (u & Eu & _ & Hu & _); [constructor; [exact Nx|constructor; [apply Nd; reflexivity|constructor]]|]. congruence.
Qed.
Section Sums.
Context {V : Type} (astype : dtype -> V -> V) (add : dtype -> V -> V -> V) (Hf : faithful astype).
Lemma addition_one_by_one (o : oper V) ops x : numeric (a_dtype x) -> d_native (a_dtype x) = true -> Forall numeric (types (o :: ops)) -> unmixed (a_dtype x :: types (o :: ops)) -> Forall (compatible astype) (o :: ops) ->
  exists y ys t, call astype o x None = Ok y /\ Forall2 (fun o y => call astype o x None = Ok y) ops ys /\ common_type (map (fun y => Some (a_dtype y)) (y :: ys)) = Some t /\
    call astype (addition add o ops) x None = Ok (Array t (fold_left (add t) (map (fun y => convert astype (a_dtype y) t (a_data y)) ys) (convert astype (a_dtype y) t (a_data y)))).
Proof.
  intros Nx Hx F U Co. destruct (addition_call astype add o ops x Nx F) as (t & Et & Nt & E). assert (Nv : norm (a_dtype x) = a_dtype x) by (unfold norm; rewrite <- Hx; destruct (a_dtype x); reflexivity).
  assert (Ht : norm t = t). { refine (common_pair_native _ _ _ Nx Nv _ Et). intros d Ed. destruct (somes (map o_dtype (o :: ops))) as [|a r] eqn:Es; [rewrite common_unfold, Es in Ed; discriminate|]. destruct (common_some (map o_dtype (o :: ops))) as (c & Ec & Nc & _); [exact F|rewrite Es; discriminate|]. congruence. }
  rewrite final_type in Et by assumption. unfold final in Et.
  (* each operand *)
  assert (G : forall o', In o' (o :: ops) -> exists t', common_type [Some (a_dtype x); o_dtype o'] = Some t' /\ numeric t' /\ norm t' = t' /\ can_cast (a_dtype x) t' = true /\ (forall d, o_dtype o' = Some d -> can_cast d t' = true) /\ can_cast t' t = true /\ (d_kind t' = d_kind (a_dtype x) \/ (exists d, o_dtype o' = Some d /\ d_kind t' = d_kind d) \/ (d_kind t' <> UInt_ /\ d_kind t' <> Int_))).
  { intros o' Ho. assert (Fo : Forall numeric (somes [Some (a_dtype x); o_dtype o'])).
    { change (Forall numeric (a_dtype x :: somes [o_dtype o'])). constructor; [exact Nx|]. apply Forall_forall. intros s Hs. apply (proj1 (Forall_forall _ _) F). unfold types. apply in_flat_map. exists (o_dtype o'). split; [apply in_map, Ho|]. unfold somes in Hs. cbn in Hs. rewrite app_nil_r in Hs. exact Hs. }
    assert (Uo : unmixed (somes [Some (a_dtype x); o_dtype o'])).
    { apply (unmixed_sub (a_dtype x :: types (o :: ops))); [|exact U]. intros s [Hs|Hs]; [left; exact Hs|right]. unfold types. apply in_flat_map. exists (o_dtype o'). split; [apply in_map, Ho|]. cbn in Hs. rewrite app_nil_r in Hs. exact Hs. }
    destruct (common_least [Some (a_dtype x); o_dtype o'] Fo) as (t' & E1 & N1 & L1 & K1); [discriminate|exact Uo|]. destruct (common_some [Some (a_dtype x); o_dtype o'] Fo) as (t2 & E2 & _ & Ub & _); [discriminate|]. assert (t2 = t') as -> by congruence.
    destruct (common_some (Some (a_dtype x) :: map o_dtype (rev (o :: ops)))) as (t3 & E3 & _ & Ub3 & _); [change (Forall numeric (a_dtype x :: types (rev (o :: ops)))); constructor; [exact Nx|apply numeric_rev, F]|discriminate|]. assert (t3 = t) as -> by congruence.
    assert (Hd : forall d, o_dtype o' = Some d -> In d (types (o :: ops))). { intros d Ed. unfold types. apply in_flat_map. exists (o_dtype o'). split; [apply in_map, Ho|rewrite Ed; left; reflexivity]. }
    exists t'. split; [exact E1|]. split; [exact N1|]. split; [|split; [apply Ub; left; reflexivity|split; [intros d Ed; apply Ub; rewrite Ed; right; left; reflexivity|split]]].
    - refine (common_pair_native _ _ _ Nx Nv _ E1). intros d Ed. exact (proj1 (Forall_forall _ _) F d (Hd d Ed)).
    - apply L1; [exact Nt|]. intros s [<-|Hs]; [apply Ub3; left; reflexivity|]. apply Ub3. right. fold (types (rev (o :: ops))). apply (Permutation_in s (types_rev (o :: ops))). apply Hd. destruct (o_dtype o'); [destruct Hs as [->|[]]; reflexivity|destruct Hs].
    - destruct K1 as [(s & [<-|Hs] & Ks)|K1]; [left; exact Ks| |right; right; exact K1]. right; left. exists s. split; [destruct (o_dtype o'); [destruct Hs as [->|[]]; reflexivity|destruct Hs]|exact Ks]. }
  set (ty := fun o' : oper V => match common_type [Some (a_dtype x); o_dtype o'] with Some t' => t' | None => t end).
  set (re := fun o' : oper V => Array (ty o') (o_direct o' (ty o') (ty o') (convert astype (a_dtype x) (ty o') (a_data x)))).
  assert (Gc : forall o', In o' (o :: ops) -> call astype o' x None = Ok (re o')). { intros o' Ho. destruct (G o' Ho) as (t' & E1 & _). unfold re, ty. rewrite E1. apply call_unfold, E1. }
  exists (re o), (map re ops), t. split; [apply Gc; left; reflexivity|]. split.
  { assert (Gc' : forall o', In o' ops -> call astype o' x None = Ok (re o')) by (intros o' Ho; apply Gc; right; exact Ho). clear -Gc'. induction ops as [|a l IH]; [constructor|]. cbn [map]. constructor; [apply Gc'; left; reflexivity|]. apply IH. intros o' Ho. apply Gc'. right. exact Ho. }
  assert (Gt : forall o', In o' (o :: ops) -> numeric (ty o') /\ norm (ty o') = ty o' /\ can_cast (a_dtype x) (ty o') = true /\ (forall d, o_dtype o' = Some d -> can_cast d (ty o') = true) /\ can_cast (ty o') t = true /\ (d_kind (ty o') = d_kind (a_dtype x) \/ (exists d, o_dtype o' = Some d /\ d_kind (ty o') = d_kind d) \/ (d_kind (ty o') <> UInt_ /\ d_kind (ty o') <> Int_))).
  { intros o' Ho. destruct (G o' Ho) as (t' & E1 & H). unfold ty. rewrite E1. exact H. }
  split.
  - change (re o :: map re ops) with (map re (o :: ops)). rewrite map_map. cbn [a_dtype re]. rewrite <- (map_map ty Some).
    assert (Fy : Forall numeric (somes (map Some (map ty (o :: ops))))). { rewrite somes_map. apply Forall_forall. intros s Hs. apply in_map_iff in Hs. destruct Hs as (o' & <- & Ho). apply Gt, Ho. }
    assert (Uy : unmixed (somes (map Some (map ty (o :: ops))))).
    { rewrite somes_map. destruct U as [U|U]; [left|right]; intros s Hs; apply in_map_iff in Hs; destruct Hs as (o' & <- & Ho); destruct (Gt o' Ho) as (_ & _ & _ & _ & _ & K); destruct K as [K|[(d & Ed & K)|[K1 K2]]]; try assumption; rewrite K; apply U; first [left; reflexivity|right; unfold types; apply in_flat_map; exists (o_dtype o'); split; [apply in_map, Ho|rewrite Ed; left; reflexivity]]. }
    destruct (common_least _ Fy) as (T & ET & NT & LT & _); [rewrite somes_map; discriminate|exact Uy|]. destruct (common_some _ Fy) as (T2 & ET2 & _ & UT & _); [rewrite somes_map; discriminate|]. assert (T2 = T) as -> by congruence. rewrite ET. f_equal.
    rewrite somes_map in LT, UT. assert (HT : norm T = T). { apply (common_native _ _ ET Fy). rewrite somes_map. intros s Hs. apply in_map_iff in Hs. destruct Hs as (o' & <- & Ho). apply Gt, Ho. }
    rewrite <- HT, <- Ht. apply cast_antisym; [exact NT|exact Nt| |].
    + apply LT; [exact Nt|]. intros s Hs. apply in_map_iff in Hs. destruct Hs as (o' & <- & Ho). apply Gt, Ho.
    + assert (H1 : forall o', In o' (o :: ops) -> can_cast (ty o') T = true) by (intros o' Ho; apply UT, in_map, Ho).
      destruct (common_least (Some (a_dtype x) :: map o_dtype (rev (o :: ops)))) as (t3 & E3 & _ & L3 & _); [change (Forall numeric (a_dtype x :: types (rev (o :: ops)))); constructor; [exact Nx|apply numeric_rev, F]|discriminate|exact (unmixed_rev _ _ U)|]. assert (t3 = t) as -> by congruence.
      apply L3; [exact NT|]. intros s [<-|Hs].
      * destruct (Gt o (or_introl eq_refl)) as (N1 & _ & C1 & _). apply (cast_trans _ (ty o) T); [exact Nx|exact N1|exact NT|exact C1|apply H1; left; reflexivity].
      * fold (types (rev (o :: ops))) in Hs. apply (Permutation_in s (Permutation_sym (types_rev (o :: ops)))) in Hs. pose proof (proj1 (Forall_forall _ _) F s Hs) as Ns. unfold types in Hs. apply in_flat_map in Hs. destruct Hs as (od & Hod & Hs). apply in_map_iff in Hod. destruct Hod as (o' & <- & Ho). destruct (o_dtype o') as [d|] eqn:Ed; [|destruct Hs]. destruct Hs as [->|[]].
        destruct (Gt o' Ho) as (N1 & _ & _ & C1 & _). apply (cast_trans s (ty o') T); [exact Ns|exact N1|exact NT|apply C1, Ed|apply H1, Ho].
  - rewrite E. cbv zeta. do 2 f_equal. assert (H2 : forall o', In o' (o :: ops) -> o_direct o' t t (convert astype (a_dtype x) t (a_data x)) = convert astype (a_dtype (re o')) t (a_data (re o'))).
    { intros o' Ho. destruct (Gt o' Ho) as (N1 & _ & C1 & _ & C2 & _). cbn [re a_dtype a_data]. rewrite <- (proj1 (Forall_forall _ _) Co o' Ho _ _ _ C2). rewrite (Hf _ _ _ _ C1 C2). reflexivity. }
    rewrite H2 by (left; reflexivity). rewrite map_map. rewrite (map_ext_in _ (fun o' => convert astype (a_dtype (re o')) t (a_data (re o')))) by (intros o' Ho; apply H2; right; exact Ho). reflexivity.
Qed.
End Sums.
