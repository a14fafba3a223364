(** C73: the texts of messages. *)
From Coq Require Import List Arith ZArith QArith String Ascii Lia.
From Verif Require Import Base MsgModel MsgSpec MsgProofs.
Import ListNotations.
Local Open Scope string_scope.

(** The choices that are enumerated can be read back, in their order, from between the quotes, whatever they contain but quotes. *)
Theorem C73_choices : forall l last, Forall (free "'") l -> free "'" last -> l <> [] -> exists t, strenum l last = Ok t /\ quoted t = l.
Proof. exact strenum_quoted. Qed.
Print Assumptions C73_choices.
Example C73_choices_case : strenum ["blue"; "red, or"; "yellow"] "or" = Ok "'blue', 'red, or' or 'yellow'" /\ quoted "'blue', 'red, or' or 'yellow'" = ["blue"; "red, or"; "yellow"].
Proof. split; reflexivity. Qed.

(** An empty enumeration raises ValueError, and nothing else does. *)
Theorem C73_no_choice : forall l last, strenum l last = Raise ValueError <-> l = [].
Proof. intros [|c [|d l]] last; (split; [intros E|intros E]); try reflexivity; discriminate E. Qed.
Print Assumptions C73_no_choice.
Example C73_no_choice_case : strenum [] "or" = Raise ValueError /\ strenum [""] "or" = Ok "''".
Proof. split; reflexivity. Qed.

(** The number is read back from the text of a number of things, and so is their name. *)
Theorem C73_number : forall n m name name' s s', strplural n name false s = strplural m name' false s' -> n = m /\ (s = s' -> name = name').
Proof. intros. eapply strplural_inj; eassumption. Qed.
Print Assumptions C73_number.
Example C73_number_case : strplural 0 "cat" false "" = "no cat" /\ strplural 1 "cat" false "" = "1 cat" /\ strplural 2 "animal" false ": " = "2 animals: ".
Proof. split; [|split]; reflexivity. Qed.

(** The name has an s for all the numbers but 0 and 1, and the number is the only thing that nonumber removes. *)
Theorem C73_plural : forall n name s,
  strplural n name true s = (if (n =? 0)%Z then name else if (n =? 1)%Z then name ++ s else name ++ "s" ++ s) /\
  exists number, free " " number /\ strplural n name false s = number ++ " " ++ strplural n name true s.
Proof.
  intros n name s. split; [unfold strplural; destruct (n =? 0)%Z, (n =? 1)%Z; reflexivity|]. exists (word n). split; [apply word_free|]. rewrite strplural_word, strplural_noun. reflexivity.
Qed.
Print Assumptions C73_plural.
Example C73_plural_case : strplural 2 "cat" true "" = "cats" /\ strplural 0 "cat" true ":" = "cat" /\ strplural 12 "cat" false "!" = "12 " ++ strplural 12 "cat" true "!".
Proof. split; [|split]; reflexivity. Qed.

(** The text of a number of bytes is the exact number in a unit; the number is less than 1024 unless it is in GiB, and at least 1 unless it is in bytes. *)
Theorem C73_bytes : forall fstr n, exists unit name,
  strnbytes fstr n = (if (unit =? 1)%positive then str n else fstr (n # unit)) ++ " " ++ name /\
  In (unit, name) [(1%positive, "bytes"); (1024%positive, "KiB"); (1048576%positive, "MiB"); (1073741824%positive, "GiB")] /\
  ((n < 1024 * Zpos unit)%Z \/ name = "GiB") /\ ((Zpos unit <= n)%Z \/ name = "bytes").
Proof.
  intros fstr n. unfold strnbytes. destruct (Z.ltb_spec n 1024) as [L1|L1]; [exists 1%positive, "bytes"|destruct (Z.ltb_spec n 1048576) as [L2|L2]; [exists 1024%positive, "KiB"|destruct (Z.ltb_spec n 1073741824) as [L3|L3]; [exists 1048576%positive, "MiB"|exists 1073741824%positive, "GiB"]]];
  (split; [reflexivity|]; split; [cbn; tauto|]; split); try (right; reflexivity); left; lia.
Qed.
Print Assumptions C73_bytes.
Example C73_bytes_case : strnbytes (fun _ => "78.125") 80000 = "78.125 KiB" /\ (80000 # 1024 == 78125 # 1000)%Q /\ strnbytes (fun _ => "") 1023 = "1023 bytes".
Proof. split; [|split]; reflexivity. Qed.

(** Different numbers of bytes have different texts. *)
Theorem C73_bytes_distinct : forall fstr n m, written fstr -> strnbytes fstr n = strnbytes fstr m -> n = m.
Proof. exact bytes_inj. Qed.
Print Assumptions C73_bytes_distinct.
Example C73_bytes_distinct_case : written (fun q => str (Qnum (Qred q)) ++ "/" ++ str (Zpos (Qden (Qred q)))).
Proof. exact fraction_written. Qed.

(** The messages of the processes of a communicator have the same length, and tell them apart. *)
Theorem C73_ranks : forall log10 p size msg r r', integer_log log10 -> (r < size)%nat -> (r' < size)%nat ->
  String.length (strinfo log10 p r size msg) = String.length (strinfo log10 p r' size msg) /\ (strinfo log10 p r size msg = strinfo log10 p r' size msg -> r = r').
Proof. exact ranks_distinct. Qed.
Print Assumptions C73_ranks.
Example C73_ranks_case : strinfo (fun _ => 1%nat) "node" 7 12 "Done" = "Info node/07: Done." /\ strinfo (fun _ => 1%nat) "node" 11 12 "Done" = "Info node/11: Done." /\
  strinfo (fun _ => 1%nat) "node" 0 1 "Done" = "Info node: Done." /\ exists log10, integer_log log10.
Proof. split; [|split; [|split]]; try reflexivity. exact integer_log_exists. Qed.

(** The rank is written in decimal digits after the name of the processor, with as many digits as the largest rank; it is not written when there is one process. *)
Theorem C73_rank : forall log10 p rank size msg, integer_log log10 -> (rank < size)%nat ->
  exists t, strinfo log10 p rank size msg = "Info " ++ p ++ t ++ ": " ++ msg ++ "." /\
  ((size = 1)%nat /\ t = "" \/ (1 < size)%nat /\ exists d, t = "/" ++ d /\ read d = Some rank /\ String.length d = (log10 (size - 1)%nat + 1)%nat).
Proof. exact strinfo_reads. Qed.
Print Assumptions C73_rank.
Example C73_rank_case : read "07" = Some 7%nat /\ read "x" = None /\ strinfo (fun _ => 1%nat) "node" 7 12 "Done" = "Info " ++ "node" ++ "/07" ++ ": " ++ "Done" ++ ".".
Proof. split; [|split]; reflexivity. Qed.

(** The message of the elapsed time is that of strinfo, with the time and without the final period. *)
Theorem C73_elapsed : forall log10 p r size seconds msg, strelapsed log10 p r size seconds msg ++ "." = strinfo log10 p r size (msg ++ "... " ++ seconds ++ "s").
Proof. exact elapsed_period. Qed.
Print Assumptions C73_elapsed.
Example C73_elapsed_case : strelapsed (fun _ => 0%nat) "node" 0 1 "0.00" "Did nothing in" = "Info node: Did nothing in... 0.00s".
Proof. reflexivity. Qed.

(** Finding: a choice that contains a quote makes the enumeration ambiguous: two different lists have the same text. *)
Theorem C73_quotes_refuted : exists l l' last, l <> l' /\ strenum l last = strenum l' last.
Proof. exists ["a', 'b"; "c"], ["a"; "b"; "c"], "or". split; [discriminate|reflexivity]. Qed.
Print Assumptions C73_quotes_refuted.

(** Finding: the documentation says that the string s is appended if n > 0, but it is also appended for negative numbers. *)
Theorem C73_negative_refuted : exists n name s, (n < 0)%Z /\ strplural n name false s = str n ++ " " ++ name ++ "s" ++ s /\ s <> "".
Proof. exists (-1)%Z, "cat", ": ". split; [lia|]. split; [reflexivity|discriminate]. Qed.
Print Assumptions C73_negative_refuted.
