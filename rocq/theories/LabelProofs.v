From Coq Require Import List Arith ZArith Ascii String DecimalString DecimalNat Lia.
From Verif Require Import Base LabelModel LabelSpec.
Import ListNotations.
Set Implicit Arguments. Unset Strict Implicit.

(** ** Decimal numbers *)
Definition digit (a : ascii) : Prop := In a (lit "0123456789").
Lemma uint_digits d : Forall digit (lit (NilEmpty.string_of_uint d)).
Proof. induction d; cbn; constructor; try exact IHd; cbv; tauto. Qed.
Lemma str_nat_digits n : Forall digit (str_nat n).
Proof. unfold str_nat, NilZero.string_of_uint. destruct (Nat.to_uint n) eqn:E; [repeat constructor; cbv; tauto| | | | | | | | | |]; rewrite <- E; apply uint_digits. Qed.
Lemma str_nat_nonempty n : str_nat n <> [].
Proof. unfold str_nat, NilZero.string_of_uint. destruct (Nat.to_uint n); discriminate. Qed.
Lemma lit_inj s t : lit s = lit t -> s = t.
Proof. intros H. apply (f_equal string_of_list_ascii) in H. unfold lit in H. rewrite !string_of_list_ascii_of_string in H. exact H. Qed.
Lemma to_uint_not_nil n : Nat.to_uint n <> Decimal.Nil.
Proof. intros H. pose proof (Unsigned.of_to n) as E. rewrite H in E. cbn in E. subst n. discriminate H. Qed.
Lemma str_nat_inj n m : str_nat n = str_nat m -> n = m.
Proof.
  intros H. apply lit_inj in H. apply (f_equal NilZero.uint_of_string) in H. rewrite !NilZero.usu in H by apply to_uint_not_nil.
  injection H as H. apply Unsigned.to_uint_inj. exact H.
Qed.

(** ** Splitting a text at a letter *)
Lemma split_at (c : ascii) (a a' b b' : text) : ~ In c a -> ~ In c a' -> a ++ c :: b = a' ++ c :: b' -> a = a' /\ b = b'.
Proof.
  revert a'. induction a as [|x a IH]; intros [|x' a'] N N' E.
  - injection E as ->. split; reflexivity.
  - injection E as -> _. exfalso. apply N'. left. reflexivity.
  - injection E as -> _. exfalso. apply N. left. reflexivity.
  - injection E as -> E. destruct (IH a') as [-> ->]; [intros I; apply N; right; exact I|intros I; apply N'; right; exact I|exact E|]. split; reflexivity.
Qed.
Definition plain (c : ascii) (t : text) : Prop := ~ In c t.
Definition item (t : text) : Prop := t <> [] /\ Forall (fun a => digit a \/ a = "."%char) t.
Lemma item_comma t : item t -> plain "," t.
Proof. intros [_ F] I. rewrite Forall_forall in F. destruct (F _ I) as [D|D]; [|discriminate D]. cbv in D. intuition discriminate. Qed.
Lemma item_nat n : item (str_nat n).
Proof. split; [apply str_nat_nonempty|]. eapply Forall_impl; [|apply str_nat_digits]. tauto. Qed.
Lemma item_dots : item (lit "...").
Proof. split; [discriminate|repeat constructor; right; reflexivity]. Qed.
Lemma commas_inj : forall l l', Forall item l -> Forall item l' -> commas l = commas l' -> l = l'.
Proof.
  assert (forall x l, commas (x :: l) = match l with [] => x | _ => x ++ lit "," ++ commas l end) as C by (intros x []; reflexivity).
  assert (forall l, Forall item l -> l <> [] -> commas l <> []) as NE.
  { intros [|x l] F N; [congruence|]. inversion F as [|? ? [A _] _]; subst. rewrite C. destruct l; [exact A|]. intros E. apply app_eq_nil in E. tauto. }
  induction l as [|x l IH]; intros [|x' l'] F F' E; [reflexivity| | |].
  - exfalso. apply (NE (x' :: l') F'); [discriminate|]. symmetry. exact E.
  - exfalso. apply (NE (x :: l) F); [discriminate|]. exact E.
  - inversion F as [|? ? A B]; subst. inversion F' as [|? ? A' B']; subst. rewrite !C in E. pose proof (item_comma A) as P. pose proof (item_comma A') as P'.
    destruct l as [|y l], l' as [|y' l'].
    + rewrite E. reflexivity.
    + exfalso. apply P. rewrite E. apply in_or_app. right. left. reflexivity.
    + exfalso. apply P'. rewrite <- E. apply in_or_app. right. left. reflexivity.
    + destruct (split_at P P' E) as [-> E']. f_equal. apply IH; assumption.
Qed.
Lemma commas_chars l : Forall item l -> Forall (fun a => digit a \/ In a (lit ".,")) (commas l).
Proof.
  intros F. induction F as [|x l [_ A] F IH]; [constructor|]. assert (Forall (fun a => digit a \/ In a (lit ".,")) x) as X by (eapply Forall_impl; [|exact A]; intros a [D| ->]; [left; exact D|right; left; reflexivity]).
  destruct l as [|y l]; [exact X|]. change (commas (x :: y :: l)) with (x ++ lit "," ++ commas (y :: l)). apply Forall_app. split; [exact X|]. apply Forall_app. split; [|exact IH].
  constructor; [|constructor]. right. right. left. reflexivity.
Qed.

(** ** Texts of shapes *)
Definition items (s : list nat) (b : broadcast) : list text :=
  match b with Leftward => lit "..." :: map str_nat s | Rightward => map str_nat s ++ [lit "..."] | Disabled => map str_nat s end.
Lemma items_item s b : Forall item (items s b).
Proof.
  assert (Forall item (map str_nat s)) as M by (apply Forall_forall; intros t T; apply in_map_iff in T; destruct T as (n & <- & _); apply item_nat).
  destruct b; [exact M|constructor; [apply item_dots|exact M]|apply Forall_app; split; [exact M|constructor; [apply item_dots|constructor]]].
Qed.
Definition wrap (l : list text) : text := match l with [] => lit "()" | [x] => x | _ => lit "(" ++ commas l ++ lit ")" end.
Definition letters (t : text) : Prop := Forall (fun a => digit a \/ In a (lit ".,()")) t.
Lemma letters_lift t : Forall (fun a => digit a \/ In a (lit ".,")) t -> letters t.
Proof. apply Forall_impl. intros a [D|D]; [left; exact D|right]. cbv in *. tauto. Qed.
Lemma wrap_letters l : Forall item l -> letters (wrap l).
Proof.
  intros F. destruct l as [|x [|y l]].
  - repeat constructor; right; cbv; tauto.
  - inversion F as [|? ? [_ A] _]; subst. apply letters_lift. eapply Forall_impl; [|exact A]. intros a [D| ->]; [left; exact D|right; left; reflexivity].
  - unfold wrap, letters. apply Forall_app. split; [repeat constructor; right; cbv; tauto|]. apply Forall_app. split; [apply letters_lift, commas_chars, F|repeat constructor; right; cbv; tauto].
Qed.
Lemma item_paren t r : item t -> t <> "("%char :: r.
Proof. intros [_ F] E. rewrite E in F. inversion F as [|? ? [D|D] _]; subst; [cbv in D; intuition discriminate|discriminate D]. Qed.
Lemma wrap_inj l l' : Forall item l -> Forall item l' -> wrap l = wrap l' -> l = l'.
Proof.
  intros F F' E. destruct l as [|x [|y l]], l' as [|x' [|y' l']]; cbn [wrap] in E.
  - reflexivity.
  - exfalso. inversion F' as [|? ? A _]. exact (item_paren A (eq_sym E)).
  - exfalso. inversion F' as [|? ? [A _] _]. apply A. change (lit "()") with (lit "(" ++ [] ++ lit ")") in E. apply app_inv_head, app_inv_tail in E. cbn [commas] in E. symmetry in E. apply app_eq_nil in E. tauto.
  - exfalso. inversion F as [|? ? A _]. exact (item_paren A E).
  - rewrite E. reflexivity.
  - exfalso. inversion F as [|? ? A _]. exact (item_paren A E).
  - exfalso. inversion F as [|? ? [A _] _]. apply A. change (lit "()") with (lit "(" ++ [] ++ lit ")") in E. apply app_inv_head, app_inv_tail in E. cbn [commas] in E. apply app_eq_nil in E. tauto.
  - exfalso. inversion F' as [|? ? A _]. exact (item_paren A (eq_sym E)).
  - apply commas_inj; [exact F|exact F'|]. apply app_inv_head in E. apply app_inv_tail in E. exact E.
Qed.
Lemma map_str_inj s s' : map str_nat s = map str_nat s' -> s = s'.
Proof. revert s'. induction s as [|n s IH]; intros [|n' s'] E; try discriminate E; [reflexivity|]. injection E as A B. f_equal; [apply str_nat_inj, A|apply IH, B]. Qed.
Lemma strshape_some s b : strshape (Some s) b = match s, b with [], Leftward | [], Rightward => lit "(...)" | _, _ => wrap (items s b) end.
Proof. destruct s, b; reflexivity. Qed.
Lemma strshape_disabled s : strshape (Some s) Disabled = wrap (map str_nat s).
Proof. rewrite strshape_some. destruct s; reflexivity. Qed.
Lemma strshape_inj s s' : strshape (Some s) Disabled = strshape (Some s') Disabled -> s = s'.
Proof. rewrite !strshape_disabled. intros E. apply map_str_inj, wrap_inj; [apply (items_item s Disabled)|apply (items_item s' Disabled)|exact E]. Qed.
Lemma strshape_letters s : letters (strshape (Some s) Disabled).
Proof. rewrite strshape_disabled. apply wrap_letters, (items_item s Disabled). Qed.
Lemma letters_not t c : letters t -> ~ digit c -> ~ In c (lit ".,()") -> ~ In c t.
Proof. intros L D N I. unfold letters in L. rewrite Forall_forall in L. destruct (L _ I); contradiction. Qed.
Lemma dots_not_nat n : str_nat n <> lit "...".
Proof. intros E. pose proof (str_nat_digits n) as F. rewrite E in F. inversion F as [|? ? D _]; subst. cbv in D. intuition discriminate. Qed.
Lemma no_dots s : ~ In (lit "...") (map str_nat s).
Proof. intros I. apply in_map_iff in I. destruct I as (n & E & _). exact (dots_not_nat E). Qed.

Lemma strshape_broadcast s s' b b' : strshape (Some s) b = strshape (Some s') b' -> s = s' /\ (b = b' \/ s = []).
Proof.
  intros E. rewrite !strshape_some in E.
  assert (forall u c, match u, c with [], Leftward | [], Rightward => True | _, _ => wrap (items u c) <> lit "(...)" end) as W.
  { intros u c. assert (wrap (items u c) = lit "(...)" -> match u with [] => c = Disabled | _ => True end -> False) as K.
    { intros X Y. destruct (items u c) as [|i [|j l]] eqn:I.
      - discriminate X.
      - pose proof (items_item u c) as F. rewrite I in F. inversion F as [|? ? A _]; subst. exact (item_paren A X).
      - pose proof (items_item u c) as F. rewrite I in F. cbn [wrap] in X. change (lit "(...)") with (lit "(" ++ lit "..." ++ lit ")") in X. apply app_inv_head, app_inv_tail in X.
        change (lit "...") with (commas [lit "..."]) in X. apply commas_inj in X; [discriminate X|exact F|repeat constructor; [discriminate|right; reflexivity..]]. }
    destruct u as [|n u], c; try exact Logic.I; intros X; apply (K X); trivial; exact Logic.I. }
  assert (wrap (items s b) = wrap (items s' b') -> s = s' /\ (b = b' \/ s = [])) as Main.
  { intros X. apply wrap_inj in X; [|apply items_item..]. destruct b, b'; cbn [items] in X.
    - split; [apply map_str_inj, X|left; reflexivity].
    - exfalso. apply (no_dots (s := s)). rewrite X. left. reflexivity.
    - exfalso. apply (no_dots (s := s)). rewrite X. apply in_or_app. right. left. reflexivity.
    - exfalso. apply (no_dots (s := s')). rewrite <- X. left. reflexivity.
    - injection X as X. split; [apply map_str_inj, X|left; reflexivity].
    - destruct s' as [|n s'].
      + cbn [map app] in X. injection X as X. apply map_eq_nil in X. subst. split; [reflexivity|right; reflexivity].
      + cbn [map app] in X. injection X as X _. exfalso. exact (dots_not_nat (eq_sym X)).
    - exfalso. apply (no_dots (s := s')). rewrite <- X. apply in_or_app. right. left. reflexivity.
    - destruct s as [|n s].
      + cbn [map app] in X. injection X as X. symmetry in X. apply map_eq_nil in X. subst. split; [reflexivity|right; reflexivity].
      + cbn [map app] in X. injection X as X _. exfalso. exact (dots_not_nat X).
    - apply app_inv_tail in X. split; [apply map_str_inj, X|left; reflexivity]. }
  pose proof (W s b) as W1. pose proof (W s' b') as W2.
  destruct s as [|n s], s' as [|n' s']; destruct b, b'; try (apply Main; exact E); try (split; [reflexivity|right; reflexivity]); exfalso;
    first [apply W1; exact E|apply W2; symmetry; exact E].
Qed.

(** ** Texts of operators *)
Definition side (s : option (list nat)) : text := match s with None => lit "?" | s => strshape s Disabled end.
Definition prefix (o : operator) : text :=
  if square o && match shapein o with Some s => (1 <? List.length s)%nat | None => false end then side (shapein o) ++ lit "²" else side (shapeout o) ++ lit "x" ++ side (shapein o).
Lemma str_shows o n : name o = Some n -> shows_shapes o -> str o = prefix o ++ " "%char :: shown_name n.
Proof.
  intros N (L & _ & S & _). unfold str, prefix. rewrite N, L. replace (_ || _)%bool with true by (destruct (shapein o), (shapeout o); cbn; destruct S; congruence).
  cbn [andb]. unfold side. destruct (shapein o), (shapeout o); rewrite <- app_assoc; reflexivity.
Qed.
Definition quiet (t : text) : Prop := Forall (fun a => digit a \/ In a (lit ".,()?")) t.
Lemma side_quiet s : quiet (side s).
Proof.
  destruct s as [s|]; [|repeat constructor; right; cbv; tauto]. eapply Forall_impl; [|apply strshape_letters]. intros a [D|D]; [left; exact D|right; cbv in *; tauto].
Qed.
Lemma quiet_not t c : quiet t -> ~ digit c -> ~ In c (lit ".,()?") -> ~ In c t.
Proof. intros L D N I. unfold quiet in L. rewrite Forall_forall in L. destruct (L _ I); contradiction. Qed.
Lemma side_inj s s' : side s = side s' -> s = s'.
Proof.
  destruct s as [s|], s' as [s'|]; intros E; [f_equal; apply strshape_inj, E| | |reflexivity].
  - exfalso. pose proof (strshape_letters s) as L. unfold side in E. rewrite E in L. inversion L as [|? ? [D|D] _]; subst; cbv in D; intuition discriminate.
  - exfalso. pose proof (strshape_letters s') as L. unfold side in E. rewrite <- E in L. inversion L as [|? ? [D|D] _]; subst; cbv in D; intuition discriminate.
Qed.
Ltac absent := apply (quiet_not (side_quiet _)); cbv; intuition discriminate.
Lemma prefix_no_space o : ~ In " "%char (prefix o).
Proof.
  unfold prefix. destruct (square o && _)%bool; intros I; repeat (apply in_app_or in I; destruct I as [I|I]); try (revert I; absent); cbv in I; intuition discriminate.
Qed.
Definition second : text := lit "²".
Lemma second_bytes : exists a b, second = [a; b] /\ ~ digit a /\ ~ In a (lit ".,()?") /\ a <> "x"%char.
Proof. do 2 eexists. split; [reflexivity|]. cbv. intuition discriminate. Qed.
Lemma prefix_inj o o' : shows_shapes o -> shows_shapes o' -> prefix o = prefix o' -> shapein o = shapein o' /\ shapeout o = shapeout o'.
Proof.
  intros (_ & _ & _ & Q) (_ & _ & _ & Q'). unfold prefix. destruct second_bytes as (a & b & B & D & N & X). fold second. rewrite B.
  destruct (square o) eqn:S, (square o') eqn:S'; cbn [andb].
  all: try (destruct (match shapein o with Some s => (1 <? List.length s)%nat | None => false end)); try (destruct (match shapein o' with Some s => (1 <? List.length s)%nat | None => false end)).
  all: intros E.
  all: try (apply (split_at (c := "x"%char)) in E; [|absent|absent]; destruct E as [E1 E2]; split; apply side_inj; assumption).
  all: try (apply (split_at (c := a)) in E; [|apply (quiet_not (side_quiet _)); assumption|apply (quiet_not (side_quiet _)); assumption]; destruct E as [E _]; apply side_inj in E; rewrite <- Q, <- Q' by reflexivity; split; exact E).
  all: exfalso; assert (In a (side (shapeout o) ++ lit "x" ++ side (shapein o)) \/ In a (side (shapeout o') ++ lit "x" ++ side (shapein o'))) as I
    by (first [right; rewrite <- E; apply in_or_app; right; left; reflexivity|left; rewrite E; apply in_or_app; right; left; reflexivity]).
  all: destruct I as [I|I]; apply in_app_or in I; (destruct I as [I|I]; [revert I; apply (quiet_not (side_quiet _)); assumption|]);
    apply in_app_or in I; (destruct I as [[I|[]]|I]; [congruence|revert I; apply (quiet_not (side_quiet _)); assumption]).
Qed.

(** ** Integers *)
Lemma digits_no_minus t : Forall digit t -> ~ In "-"%char t.
Proof. intros F I. rewrite Forall_forall in F. specialize (F _ I). cbv in F. intuition discriminate. Qed.
Lemma str_int_inj z z' : str_int z = str_int z' -> z = z'.
Proof.
  unfold str_int. destruct (Z.ltb_spec z 0), (Z.ltb_spec z' 0); intros E.
  - apply app_inv_head, str_nat_inj in E. lia.
  - exfalso. apply (digits_no_minus (str_nat_digits (Z.to_nat z'))). rewrite <- E. left. reflexivity.
  - exfalso. apply (digits_no_minus (str_nat_digits (Z.to_nat z))). rewrite E. left. reflexivity.
  - apply str_nat_inj in E. lia.
Qed.
Definition coefficient (z : Z) : text := if (z =? 1)%Z then [] else if (z =? -1)%Z then lit "-" else str_int z.
Lemma coefficient_inj z z' : coefficient z = coefficient z' -> z = z'.
Proof.
  assert (forall u, str_int u <> []) as A by (intros u; unfold str_int; destruct (u <? 0)%Z; [discriminate|apply str_nat_nonempty]).
  assert (forall u, str_int u <> lit "-") as B.
  { intros u. unfold str_int. destruct (u <? 0)%Z; intros E.
    - change (lit "-") with (lit "-" ++ []) in E at 2. apply app_inv_head in E. exact (str_nat_nonempty E).
    - apply (digits_no_minus (str_nat_digits (Z.to_nat u))). rewrite E. left. reflexivity. }
  unfold coefficient. destruct (Z.eqb_spec z 1), (Z.eqb_spec z' 1), (Z.eqb_spec z (-1)), (Z.eqb_spec z' (-1)); intros E; try congruence; try (exfalso; first [discriminate E|exact (A _ E)|exact (A _ (eq_sym E))|exact (B _ E)|exact (B _ (eq_sym E))]).
  apply str_int_inj, E.
Qed.
Lemma homothety_coefficient z : str_homothety (Integer z) = Ok (coefficient z ++ lit "I").
Proof. unfold str_homothety, coefficient. destruct (z =? 1)%Z; [reflexivity|]. destruct (z =? -1)%Z; reflexivity. Qed.
Lemma str_int_plain z : ~ In ")"%char (str_int z) /\ ~ In "("%char (str_int z).
Proof.
  assert (forall n, ~ In ")"%char (str_nat n) /\ ~ In "("%char (str_nat n)) as H.
  { intros n. pose proof (str_nat_digits n) as F. rewrite Forall_forall in F. split; intros I; specialize (F _ I); cbv in F; intuition discriminate. }
  unfold str_int. destruct (z <? 0)%Z; [|apply H]. cbn [lit list_ascii_of_string app]. split; (intros [I|I]; [discriminate I|apply H in I; exact I]).
Qed.
Lemma reshape_inj s i s' i' : str_reshape s i = str_reshape s' i' -> s = s' /\ i = i'.
Proof.
  unfold str_reshape. change (lit "←") with ["226"%char; "134"%char; "144"%char]. cbn [app]. intros E.
  apply split_at in E; [|apply (letters_not (strshape_letters _)); cbv; intuition discriminate..]. destruct E as [A B]. injection B as B. split; apply strshape_inj; assumption.
Qed.
(** Examples *)
Definition matrix : operator := {| name := Some (lit "DenseOperator"); class_name := lit "DenseOperator"; linear := true; square := false; shapein := Some [3]; shapeout := Some [2] |}.
Definition mask : operator := {| name := Some (lit "MaskOperator"); class_name := lit "MaskOperator"; linear := true; square := true; shapein := Some [2; 3]; shapeout := Some [2; 3] |}.
Definition rounding (n : nat) : operator := {| name := Some (lit "RoundOperator"); class_name := lit "RoundOperator"; linear := false; square := true; shapein := Some [n]; shapeout := Some [n] |}.
Lemma reduction_inj r r' a a' t : str_reduction r a = Ok t -> str_reduction r' a' = Ok t -> r = r' /\ a = a'.
Proof.
  intros A B. destruct r; [..|discriminate A]; (destruct r'; [..|discriminate B]); assert (E := eq_trans A (eq_sym B)); clear A B;
    destruct a as [k|], a' as [k'|]; cbn [str_reduction axis_of reduction_name] in E; try discriminate E; split; try reflexivity.
  all: injection E as E; apply app_inv_tail, str_int_inj in E; congruence.
Qed.

(** ** Names *)
Lemma remove_nil f p : remove f p [] = [].
Proof. destruct f; reflexivity. Qed.
Lemma remove_suffix (b : text) : forall f, ~ In "O"%char b -> (List.length b < f)%nat -> remove f (lit "Operator") (b ++ lit "Operator") = b /\ remove f (lit "Operator") b = b.
Proof.
  induction b as [|a b IH]; intros f N L.
  - destruct f as [|f]; [inversion L|]. cbn [app]. split; [|apply remove_nil]. change (remove f (lit "Operator") [] = []). apply remove_nil.
  - destruct f as [|f]; [inversion L|]. assert (a <> "O"%char) as A by (intros ->; apply N; left; reflexivity). cbn [List.length] in L. destruct (IH f) as [P Q]; [intros I; apply N; right; exact I|lia|].
    assert (forall s, starts (lit "Operator") (a :: s) = false) as S by (intros s; cbn -[Ascii.eqb]; destruct (Ascii.eqb_spec "O" a) as [E|_]; [exfalso; apply A; symmetry; exact E|reflexivity]).
    cbn [app remove]. rewrite !S, P, Q. split; reflexivity.
Qed.
Lemma shown_suffix (b : text) : b <> [] -> ~ In "O"%char b -> shown_name (b ++ lit "Operator") = map lower b /\ shown_name b = map lower b.
Proof.
  intros N O. unfold shown_name. destruct (list_eq_dec ascii_dec (b ++ lit "Operator") (lit "Operator")) as [E|_].
  - exfalso. apply N. apply (f_equal (@List.length ascii)) in E. rewrite app_length in E. destruct b; [reflexivity|cbn in E; lia].
  - destruct (list_eq_dec ascii_dec b (lit "Operator")) as [E|_]; [exfalso; apply O; rewrite E; left; reflexivity|].
    split; f_equal; [apply remove_suffix; [exact O|rewrite app_length; cbn; lia]|].
    assert (remove (S (List.length b)) (lit "Operator") b = b) as R by (apply remove_suffix; [exact O|lia]). clear N. revert O R. clear. intros O _. induction b as [|a b IH]; [reflexivity|].
    assert (a <> "O"%char) as A by (intros ->; apply O; left; reflexivity). cbn [List.length remove]. assert (starts (lit "Operator") (a :: b) = false) as S by (cbn -[Ascii.eqb]; destruct (Ascii.eqb_spec "O" a) as [E|_]; [exfalso; apply A; symmetry; exact E|reflexivity]).
    rewrite S, IH; [reflexivity|]. intros I. apply O. right. exact I.
Qed.
Lemma lower_small a : lower a = small a.
Proof. destruct a as [[] [] [] [] [] [] [] []]; vm_compute; reflexivity. Qed.
