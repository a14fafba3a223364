From Coq Require Import List Arith ZArith QArith String Ascii Decimal DecimalString DecimalZ Bool Lia.
From Verif Require Import Base MsgModel MsgSpec.
Import ListNotations.
Set Implicit Arguments. Unset Strict Implicit.
Local Open Scope string_scope.

Lemma app_assoc_s (a b c : string) : (a ++ b) ++ c = a ++ b ++ c.
Proof. induction a as [|x a IH]; [reflexivity|]. cbn. rewrite IH. reflexivity. Qed.
Lemma app_nil_s (a : string) : a ++ "" = a.
Proof. induction a as [|x a IH]; [reflexivity|]. cbn. rewrite IH. reflexivity. Qed.
Lemma app_cancel (a b c : string) : a ++ b = a ++ c -> b = c.
Proof. induction a as [|x a IH]; [tauto|]. cbn. intros E. injection E as E. apply IH, E. Qed.

(** ** Enumerations *)
Lemma quoted_out (a b : string) : free "'" a -> quoted_from false "" (a ++ b) = quoted_from false "" b.
Proof. induction a as [|x a IH]; intros F; [reflexivity|]. destruct F as [N F]. cbn [append quoted_from]. rewrite (proj2 (Ascii.eqb_neq x "'") N). apply IH, F. Qed.
Lemma quoted_in (a b : string) : forall t, free "'" a -> quoted_from true t (a ++ "'" ++ b) = (t ++ a) :: quoted_from false "" b.
Proof.
  induction a as [|x a IH]; intros t F.
  - cbn. rewrite app_nil_s. reflexivity.
  - destruct F as [N F]. cbn [append quoted_from]. rewrite (proj2 (Ascii.eqb_neq x "'") N). change (a ++ String "'" b) with (a ++ "'" ++ b). rewrite IH by exact F. rewrite app_assoc_s. reflexivity.
Qed.
Lemma quoted_quote (c b : string) : free "'" c -> quoted_from false "" (quote c ++ b) = c :: quoted_from false "" b.
Proof. intros F. unfold quote. rewrite !app_assoc_s. cbn [append quoted_from Ascii.eqb Bool.eqb]. change (c ++ String "'" b) with (c ++ "'" ++ b). apply (quoted_in b "" F). Qed.
Lemma quoted_concat (l : list string) (b : string) : Forall (free "'") l -> quoted_from false "" (String.concat ", " (List.map quote l) ++ b) = (l ++ quoted_from false "" b)%list.
Proof.
  induction l as [|c l IH]; intros F; [reflexivity|]. inversion F as [|? ? X Y]; subst. destruct l as [|d l].
  - cbn [List.map String.concat List.app]. apply quoted_quote, X.
  - change (String.concat ", " (List.map quote (c :: d :: l))) with (quote c ++ ", " ++ String.concat ", " (List.map quote (d :: l))).
    rewrite !app_assoc_s, quoted_quote by exact X. rewrite quoted_out by (cbn; repeat split; discriminate). rewrite IH by exact Y. reflexivity.
Qed.
Lemma removelast_map (A B : Type) (f : A -> B) l : List.removelast (List.map f l) = List.map f (List.removelast l).
Proof. induction l as [|x [|y l] IH]; [reflexivity|reflexivity|]. cbn [List.map List.removelast] in *. rewrite IH. reflexivity. Qed.
Lemma free_app c (a b : string) : free c a -> free c b -> free c (a ++ b).
Proof. induction a as [|x a IH]; [tauto|]. intros [N F] G. split; [exact N|apply IH; assumption]. Qed.
Lemma strenum_quoted (l : list string) (last : string) : Forall (free "'") l -> free "'" last -> l <> [] -> exists t, strenum l last = Ok t /\ quoted t = l.
Proof.
  intros F G N. unfold strenum. destruct l as [|c [|d l]]; [contradiction| |].
  - eexists. split; [reflexivity|]. cbn [List.map]. unfold quoted. rewrite <- (app_nil_s (quote c)). rewrite quoted_quote by (inversion F; assumption). reflexivity.
  - cbn [List.map]. eexists. split; [reflexivity|]. change (quote c :: quote d :: List.map quote l) with (List.map quote (c :: d :: l)). set (m := c :: d :: l) in *. assert (m <> []) as M by discriminate.
    rewrite removelast_map. assert (List.last (List.map quote m) "" = quote (List.last m "")) as L.
    { clear - M. induction m as [|x [|y m] IH]; [contradiction|reflexivity|]. cbn [List.map List.last] in *. apply IH. discriminate. }
    rewrite L. unfold quoted. pose proof (app_removelast_last "" M) as R. rewrite R in F. apply Forall_app in F. destruct F as [F1 F2]. inversion F2 as [|? ? X _]; subst.
    rewrite quoted_concat by exact F1. transitivity (List.removelast m ++ [List.last m ""])%list; [f_equal|symmetry; exact R].
    change (quoted_from false "" (String " " (last ++ " " ++ quote (List.last m ""))) = [List.last m ""]).
    change (String " " (last ++ " " ++ quote (List.last m ""))) with (" " ++ last ++ " " ++ quote (List.last m "")). rewrite <- !app_assoc_s.
    rewrite quoted_out; [rewrite <- (app_nil_s (quote _)); apply quoted_quote, X|]. apply free_app; [apply free_app; [|exact G]|]; cbn; repeat split; discriminate.
Qed.

(** ** Integers *)
Lemma str_inj n m : str n = str m -> n = m.
Proof.
  unfold str. intros E. assert (forall z, NilZero.int_of_string (NilZero.string_of_int (Z.to_int z)) = Some (Z.to_int z)) as K.
  { intros z. apply NilZero.isi; intros H; pose proof (of_to z) as O; rewrite H in O; cbn in O; subst z; discriminate H. }
  apply to_int_inj. pose proof (K n) as A. rewrite E, K in A. injection A as A. symmetry. exact A.
Qed.
Lemma uint_free (c : ascii) u : free c "0123456789" -> free c (NilEmpty.string_of_uint u).
Proof. intros (A0 & A1 & A2 & A3 & A4 & A5 & A6 & A7 & A8 & A9 & _). induction u; cbn; auto. Qed.
Lemma uint_free' (c : ascii) u : free c "0123456789" -> free c (NilZero.string_of_uint u).
Proof. intros F. destruct u; try (apply (uint_free _ F)). cbn. cbn in F. tauto. Qed.
Lemma str_free (c : ascii) n : free c "-0123456789" -> free c (str n).
Proof. intros [M F]. unfold str. destruct (Z.to_int n) as [u|u]; cbn [NilZero.string_of_int]; [apply uint_free', F|split; [exact M|apply uint_free', F]]. Qed.
Lemma str_space n : free " " (str n).
Proof. apply str_free. cbn. repeat split; discriminate. Qed.
Lemma str_n n : free "n" (str n).
Proof. apply str_free. cbn. repeat split; discriminate. Qed.
(** Texts with a first word *)
Lemma first_word (a a' b b' : string) : free " " a -> free " " a' -> a ++ String " " b = a' ++ String " " b' -> a = a' /\ b = b'.
Proof.
  revert a'. induction a as [|x a IH]; intros [|x' a'] F F' E; cbn in E.
  - injection E as E. split; [reflexivity|exact E].
  - injection E as X _. destruct F' as [N _]. congruence.
  - injection E as X _. destruct F as [N _]. congruence.
  - injection E as X E. destruct F as [_ F], F' as [_ F']. destruct (IH a' F F' E) as [-> ->]. subst x'. split; reflexivity.
Qed.

(** ** Plurals *)
Definition word (n : Z) : string := if (n =? 0)%Z then "no" else str n.
Lemma word_free n : free " " (word n).
Proof. unfold word. destruct (n =? 0)%Z; [cbn; repeat split; discriminate|apply str_space]. Qed.
Lemma word_inj n m : word n = word m -> n = m.
Proof.
  unfold word. destruct (Z.eqb_spec n 0) as [->|N], (Z.eqb_spec m 0) as [->|M]; intros E; [reflexivity| | |apply str_inj, E].
  - pose proof (str_n m) as F. rewrite <- E in F. destruct F as [F _]. congruence.
  - pose proof (str_n n) as F. rewrite E in F. destruct F as [F _]. congruence.
Qed.
Definition noun (n : Z) (name s : string) : string := if (n =? 0)%Z then name else if (n =? 1)%Z then name ++ s else name ++ "s" ++ s.
Lemma strplural_word n name s : strplural n name false s = word n ++ String " " (noun n name s).
Proof.
  unfold strplural, word, noun. destruct (Z.eqb_spec n 0) as [->|N]; [reflexivity|]. destruct (Z.eqb_spec n 1) as [->|M]; [reflexivity|]. rewrite app_assoc_s. reflexivity.
Qed.
Lemma strplural_inj n m name name' s s' : strplural n name false s = strplural m name' false s' -> n = m /\ (s = s' -> name = name').
Proof.
  rewrite !strplural_word. intros E. apply first_word in E; [|apply word_free|apply word_free]. destruct E as [E F]. apply word_inj in E. subst m. split; [reflexivity|]. intros <-. revert F. unfold noun.
  assert (forall a b c : string, a ++ c = b ++ c -> a = b) as K.
  { clear. intros a b c H. assert (String.length (a ++ c) = String.length (b ++ c)) as L by (rewrite H; reflexivity). assert (forall u v : string, String.length (u ++ v) = String.length u + String.length v)%nat as P by (intros u v; induction u as [|x u IH]; [reflexivity|cbn; rewrite IH; reflexivity]).
    rewrite !P in L. assert (String.length a = String.length b) as L' by lia. clear L P. revert b H L'. induction a as [|x a IH]; intros [|y b] H L; try discriminate L; [reflexivity|]. cbn in H, L. injection H as -> H. injection L as L. f_equal. apply IH; assumption. }
  destruct (n =? 0)%Z; [tauto|]. destruct (n =? 1)%Z; apply K.
Qed.

(** ** Numbers of bytes *)
Lemma bytes_inj (fstr : Q -> string) n m : written fstr -> strnbytes fstr n = strnbytes fstr m -> n = m.
Proof.
  intros [F I]. unfold strnbytes.
  destruct (n <? 1024)%Z eqn:N1; [|destruct (n <? 1048576)%Z eqn:N2; [|destruct (n <? 1073741824)%Z eqn:N3]];
  (destruct (m <? 1024)%Z eqn:M1; [|destruct (m <? 1048576)%Z eqn:M2; [|destruct (m <? 1073741824)%Z eqn:M3]]);
  intros E; apply first_word in E; try apply F; try apply str_space; destruct E as [E U]; try discriminate U; try (apply str_inj, E); apply I in E; unfold Qeq in E; cbn [Qnum Qden] in E; nia.
Qed.

(** ** Ranks *)
Lemma length_app_s (u v : string) : String.length (u ++ v) = (String.length u + String.length v)%nat.
Proof. induction u as [|x u IH]; [reflexivity|cbn; rewrite IH; reflexivity]. Qed.
Lemma digits_length n : forall r, String.length (digits n r) = n.
Proof. induction n as [|n IH]; intros r; [reflexivity|]. cbn [digits]. rewrite length_app_s, IH. cbn. lia. Qed.
Lemma snoc_inj (a b : string) x y : a ++ String x "" = b ++ String y "" -> a = b /\ x = y.
Proof.
  revert b. induction a as [|u a IH]; intros [|v b] E; cbn in E.
  - injection E as E. split; [reflexivity|exact E].
  - injection E as _ E. destruct b; discriminate E.
  - injection E as _ E. destruct a; discriminate E.
  - injection E as V E. destruct (IH b E) as [-> ->]. subst. split; reflexivity.
Qed.
Lemma digits_inj n : forall r r', (r < 10 ^ n)%nat -> (r' < 10 ^ n)%nat -> digits n r = digits n r' -> r = r'.
Proof.
  induction n as [|n IH]; intros r r' L L' E; [cbn in L, L'; lia|]. cbn [digits] in E. apply snoc_inj in E. destruct E as [E D]. rewrite Nat.pow_succ_r' in L, L'.
  assert (r / 10 = r' / 10)%nat as Q by (apply IH; [apply Nat.div_lt_upper_bound; lia|apply Nat.div_lt_upper_bound; lia|exact E]).
  pose proof (Nat.mod_upper_bound r 10 ltac:(lia)) as U. pose proof (Nat.mod_upper_bound r' 10 ltac:(lia)) as U'.
  apply (f_equal nat_of_ascii) in D. rewrite !nat_ascii_embedding in D by lia. pose proof (Nat.div_mod r 10 ltac:(lia)). pose proof (Nat.div_mod r' 10 ltac:(lia)). lia.
Qed.
Lemma rank_fits (log10 : nat -> nat) rank size : integer_log log10 -> (1 < size)%nat -> (rank < size)%nat -> (rank < 10 ^ (log10 (size - 1)%nat + 1))%nat.
Proof. intros L S R. destruct (L (size - 1)%nat) as [_ U]; [lia|]. lia. Qed.
Lemma strinfo_rank (log10 : nat -> nat) p rank size msg : integer_log log10 -> (1 < size)%nat -> (rank < size)%nat ->
  strinfo log10 p rank size msg = "Info " ++ p ++ "/" ++ digits (log10 (size - 1)%nat + 1)%nat rank ++ ": " ++ msg ++ ".".
Proof.
  intros L S R. unfold strinfo, padded. rewrite (proj2 (Nat.ltb_lt _ _) S), (proj2 (Nat.ltb_lt _ _) (rank_fits L S R)). rewrite app_assoc_s. reflexivity.
Qed.
Lemma prefix_inj (a b c d : string) : String.length a = String.length b -> a ++ c = b ++ d -> a = b.
Proof. revert b. induction a as [|x a IH]; intros [|y b] L E; try discriminate L; [reflexivity|]. cbn in L, E. injection L as L. injection E as -> E. f_equal. apply IH; assumption. Qed.
Lemma chop_snoc (t : string) c : chop (t ++ String c "") = t.
Proof. induction t as [|x t IH]; [reflexivity|]. cbn [append chop]. destruct (t ++ String c "") as [|y u] eqn:X; [destruct t; discriminate X|]. rewrite IH. reflexivity. Qed.
Lemma ranks_distinct (log10 : nat -> nat) p size msg r r' : integer_log log10 -> (r < size)%nat -> (r' < size)%nat ->
  String.length (strinfo log10 p r size msg) = String.length (strinfo log10 p r' size msg) /\ (strinfo log10 p r size msg = strinfo log10 p r' size msg -> r = r').
Proof.
  intros L R R'. destruct (Nat.le_gt_cases size 1) as [S|S].
  - assert (r = r') as -> by lia. split; [reflexivity|intros _; reflexivity].
  - rewrite !strinfo_rank by assumption. split.
    + rewrite !length_app_s, !digits_length. reflexivity.
    + intros E. apply app_cancel, app_cancel, app_cancel in E. apply prefix_inj in E; [|rewrite !digits_length; reflexivity]. revert E. apply digits_inj; apply rank_fits; assumption.
Qed.
Lemma elapsed_period (log10 : nat -> nat) p r size seconds msg : strelapsed log10 p r size seconds msg ++ "." = strinfo log10 p r size (msg ++ "... " ++ seconds ++ "s").
Proof.
  unfold strelapsed. set (m := msg ++ "... " ++ seconds ++ "s"). assert (exists t, strinfo log10 p r size m = t ++ ".") as [t ->]; [|rewrite chop_snoc; reflexivity].
  unfold strinfo. eexists. rewrite <- !app_assoc_s. reflexivity.
Qed.
Fixpoint log_fuel (fuel n : nat) : nat := match fuel with O => O | S f => if (n <? 10)%nat then O else S (log_fuel f (n / 10)) end.
Lemma log_fuel_ok f : forall n, (1 <= n)%nat -> (n <= f)%nat -> (10 ^ log_fuel f n <= n < 10 ^ (log_fuel f n + 1))%nat.
Proof.
  induction f as [|f IH]; intros n A B; [lia|]. cbn [log_fuel]. destruct (Nat.ltb_spec n 10) as [L|L]; [change (1 <= n < 10)%nat; lia|].
  pose proof (Nat.div_mod n 10 ltac:(lia)) as D. pose proof (Nat.mod_upper_bound n 10 ltac:(lia)) as U. destruct (IH (n / 10)%nat) as [P Q]; [lia|lia|].
  cbn [Nat.add]. rewrite !Nat.pow_succ_r'. lia.
Qed.
Lemma integer_log_exists : exists log10, integer_log log10.
Proof. exists (fun n => log_fuel n n). intros n H. apply log_fuel_ok; lia. Qed.
Lemma slash_word (a a' b b' : string) : free "/" a -> free "/" a' -> a ++ String "/" b = a' ++ String "/" b' -> a = a' /\ b = b'.
Proof.
  revert a'. induction a as [|x a IH]; intros [|x' a'] F F' E; cbn in E.
  - injection E as E. split; [reflexivity|exact E].
  - injection E as X _. destruct F' as [N _]. congruence.
  - injection E as X _. destruct F as [N _]. congruence.
  - injection E as X E. destruct F as [_ F], F' as [_ F']. destruct (IH a' F F' E) as [-> ->]. subst x'. split; reflexivity.
Qed.
Lemma fraction_written : written (fun q => str (Qnum (Qred q)) ++ "/" ++ str (Zpos (Qden (Qred q)))).
Proof.
  split.
  - intros q. apply free_app; [apply str_space|]. apply free_app; [cbn; repeat split; discriminate|apply str_space].
  - intros q q' E. assert (forall n, free "/" (str n)) as F by (intros n; apply str_free; cbn; repeat split; discriminate). apply slash_word in E; [|apply F|apply F]. destruct E as [A B]. apply str_inj in A. apply str_inj in B. injection B as B.
    rewrite <- (Qred_correct q), <- (Qred_correct q'). unfold Qeq. rewrite A, B. reflexivity.
Qed.
Lemma strplural_noun n name s : strplural n name true s = noun n name s.
Proof. unfold strplural, noun. destruct (n =? 0)%Z; [reflexivity|]. destruct (n =? 1)%Z; reflexivity. Qed.
Lemma read_app u : forall v a b, read_from a u = Some b -> read_from a (u ++ v) = read_from b v.
Proof. induction u as [|c u IH]; intros v a b E; cbn [append read_from] in *; [injection E as ->; reflexivity|]. destruct (_ && _)%bool; [apply IH, E|discriminate E]. Qed.
Lemma read_digits n : forall r, (r < 10 ^ n)%nat -> read (digits n r) = Some r.
Proof.
  induction n as [|n IH]; intros r L; [cbn in *; f_equal; lia|]. cbn [digits]. rewrite Nat.pow_succ_r' in L. unfold read. rewrite (read_app _ (IH (r / 10)%nat ltac:(apply Nat.div_lt_upper_bound; lia))).
  pose proof (Nat.mod_upper_bound r 10 ltac:(lia)) as U. pose proof (Nat.div_mod r 10 ltac:(lia)) as D. set (q := (r / 10)%nat) in *. set (m := (r mod 10)%nat) in *.
  unfold read_from. rewrite nat_ascii_embedding by lia. rewrite (proj2 (Nat.leb_le 48 (48 + m))) by lia. rewrite (proj2 (Nat.leb_le (48 + m) 57)) by lia. cbn [andb]. f_equal. lia.
Qed.
Lemma strinfo_reads (log10 : nat -> nat) p rank size msg : integer_log log10 -> (rank < size)%nat ->
  exists t, strinfo log10 p rank size msg = "Info " ++ p ++ t ++ ": " ++ msg ++ "." /\
  ((size = 1)%nat /\ t = "" \/ (1 < size)%nat /\ exists d, t = "/" ++ d /\ read d = Some rank /\ String.length d = (log10 (size - 1)%nat + 1)%nat).
Proof.
  intros L R. destruct (Nat.le_gt_cases size 1) as [S|S].
  - assert (size = 1%nat) as -> by lia. exists "". split; [reflexivity|left; split; reflexivity].
  - exists ("/" ++ digits (log10 (size - 1)%nat + 1)%nat rank). split; [rewrite (strinfo_rank p msg L S R), app_assoc_s; reflexivity|]. right. split; [exact S|]. eexists. split; [reflexivity|].
    split; [apply read_digits, rank_fits; assumption|apply digits_length].
Qed.
